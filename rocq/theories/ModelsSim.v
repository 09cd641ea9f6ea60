(** The curve layer (Models.v) respects simulations. *)
From Verif Require Import Base Out Params Ops Ec Models Sim.

Lemma F2_length {A B} (R : A -> B -> Prop) l m : Forall2 R l m -> length l = length m.
Proof. induction 1; cbn; auto. Qed.

Section ModelsSim.
Variables (O1 O2 : fops) (S : sim O1 O2).
Hypothesis HRand : rand_sim S.
Notation rel := (rel S). Notation srel := (srel S). Notation prel := (prel _ _ S). Notation psrel := (psrel _ _ S).

Definition crel (E : curve O1) (F : curve O2) : Prop := rel 2 (cA E) (cA F) /\ rel 2 (cC E) (cC F).
Definition irel (E : miso O1) (F : miso O2) : Prop :=
  rel 2 (iB E) (iB F) /\ rel 2 (ir E) (ir F) /\ rel 2 (iu2 E) (iu2 F).
Definition oprel (a : option (pt O1)) (b : option (pt O2)) : Prop :=
  match a, b with Some P, Some Q => psrel P Q | None, None => True | _, _ => False end.
Definition tprel {A B} (R : A -> B -> Prop) (a : A * tape) (b : B * tape) : Prop := R (fst a) (fst b) /\ snd a = snd b.

Lemma is0_sim a x : srel a x -> is0 O1 a = is0 O2 x.
Proof. intros H. apply (s_eq _ _ S); auto. apply s_zero. Qed.
Lemma point_equal_sim P Q P' Q' : prel 2 P P' -> prel 2 Q Q' -> point_equal O1 P Q = point_equal O2 P' Q'.
Proof. intros [] []. unfold point_equal, proj_equal. apply (s_eq _ _ S); bnds. Qed.
Lemma fp2div_sim a b x y : rel 2 a x -> rel 2 b y -> srel (fp2div O1 a b) (fp2div O2 x y).
Proof. intros. unfold fp2div. bnds. Qed.
Lemma fp2div_enc_sim a b x y : rel 2 a x -> rel 2 b y -> fp2div_enc O1 a b = fp2div_enc O2 x y.
Proof. intros. unfold fp2div_enc. apply (s_enc _ _ S). apply s_rel. now apply fp2div_sim. Qed.
Lemma fp2sqrt_sim k a x : srel a x ->
  rel 2 (fst (fp2sqrt O1 a k)) (fst (fp2sqrt O2 x k)) /\ snd (fp2sqrt O1 a k) = snd (fp2sqrt O2 x k).
Proof.
  intros H. unfold fp2sqrt. pose proof (s_sqrt _ _ S _ _ H) as Hy.
  destruct k; cbn [fst snd]; split; auto. apply (s_eq _ _ S); auto. bnds.
Qed.

Definition c3rel (k : Z) (c : T O1 * T O1 * T O1) (d : T O2 * T O2 * T O2) : Prop :=
  rel k (fst (fst c)) (fst (fst d)) /\ rel k (snd (fst c)) (snd (fst d)) /\ rel k (snd c) (snd d).
Lemma AAC24_sim E F : crel E F -> c3rel 2 (AC_to_AAC24 O1 E) (AC_to_AAC24 O2 F).
Proof.
  intros [H1 H2]. unfold AC_to_AAC24. split; [|split]; cbv zeta; cbn [fst snd]; bnd2.
Qed.
Lemma AC24_AC_sim a b x y : rel 2 a x -> rel 2 b y -> crel (AC24_to_AC O1 a b) (AC24_to_AC O2 x y).
Proof. intros. unfold AC24_to_AC. split; cbv zeta; cbn [cA cC]; bnd2. Qed.
Lemma AA24_AC_sim a b x y : rel 2 a x -> rel 2 b y -> crel (AA24_to_AC O1 a b) (AA24_to_AC O2 x y).
Proof. intros. unfold AA24_to_AC. split; cbv zeta; cbn [cA cC]; bnd2. Qed.

Lemma curve_rhs_sim A x B y : rel 2 A B -> srel x y -> srel (curve_rhs O1 A x) (curve_rhs O2 B y).
Proof.
  intros. unfold curve_rhs. cbv zeta. bnds.
Qed.
Lemma random_point_loop_sim f A B tp : rel 2 A B ->
  out_rel (tprel psrel) (random_point_loop O1 f A tp) (random_point_loop O2 f B tp).
Proof.
  intros HA. revert tp; induction f as [|f IH]; intros tp; cbn [random_point_loop]; [constructor|].
  eapply out_bind; [apply HRand|]. intros [x t1] [y t2] [H E]. cbn [fst snd] in *. subst t2.
  pose proof (curve_rhs_sim _ _ _ _ HA H) as Hr.
  pose proof (fp2sqrt_sim false _ _ Hr) as [_ E].
  destruct (fp2sqrt O1 _ _) as [u b]; destruct (fp2sqrt O2 _ _) as [v c]. cbn [fst snd] in *. subst c.
  destruct b; auto. constructor. split; cbn; auto. split; cbn; auto. apply s_one.
Qed.
Lemma random_point_sim A B tp : rel 2 A B -> out_rel (tprel psrel) (random_point O1 A tp) (random_point O2 B tp).
Proof. apply random_point_loop_sim. Qed.
Lemma rp_consts_sim A B : rel 2 A B -> c3rel 2 (rp_consts O1 A) (rp_consts O2 B).
Proof. intros. unfold rp_consts. split; [|split]; cbv zeta; cbn [fst snd]; bnd2. Qed.

Lemma rpwo_pick_sim e2 e3 k l A B tp : rel 2 A B ->
  out_rel (tprel psrel) (rpwo_pick O1 e2 e3 k l A tp) (rpwo_pick O2 e2 e3 k l B tp).
Proof.
  intros HA. revert tp; induction k as [|k IH]; intros tp; cbn [rpwo_pick]; [constructor|].
  pose proof (rp_consts_sim _ _ HA) as HC.
  destruct (rp_consts O1 A) as [[a1 a2] a3], (rp_consts O2 B) as [[b1 b2] b3].
  destruct HC as (C1 & C2 & C3). cbn [fst snd] in *.
  eapply out_bind; [apply random_point_sim; eauto|]. intros [P t1] [Q t2] [H E]. cbn [fst snd] in *. subst t2.
  assert (HP : psrel (if l then xTPLe O1 P a2 a1 e3 else xDBLe O1 P a1 a3 e2)
                     (if l then xTPLe O2 Q b2 b1 e3 else xDBLe O2 Q b1 b3 e2)).
  { destruct l; [apply xTPLe_sims|apply xDBLe_sims]; auto. }
  cbv zeta. rewrite (is0_sim _ _ (proj2 HP)). destruct (is0 O2 _); auto.
  constructor. split; auto.
Qed.
Lemma rpwo_order_sim k l A B P Q e : rel 2 A B -> psrel P Q ->
  out_rel (fun a b => fst a = fst b /\ psrel (snd a) (snd b)) (rpwo_order O1 k l A P e) (rpwo_order O2 k l B Q e).
Proof.
  intros HA. revert P Q e; induction k as [|k IH]; intros P Q e HP; cbn [rpwo_order]; [constructor|].
  pose proof (rp_consts_sim _ _ HA) as HC.
  destruct (rp_consts O1 A) as [[a1 a2] a3], (rp_consts O2 B) as [[b1 b2] b3].
  destruct HC as (C1 & C2 & C3). cbn [fst snd] in *.
  assert (HT : psrel (if l then xDBL O1 P a1 a3 else xTPL O1 P a2 a1) (if l then xDBL O2 Q b1 b3 else xTPL O2 Q b2 b1)).
  { destruct l; [apply xDBL_sim|apply xTPL_sim]; auto; now apply ps_rel. }
  cbv zeta. rewrite (is0_sim _ _ (proj2 HT)). destruct (is0 O2 _); auto.
  constructor. split; auto.
Qed.
Definition r4rel (a : pt O1 * nat * pt O1 * tape) (b : pt O2 * nat * pt O2 * tape) : Prop :=
  psrel (fst (fst (fst a))) (fst (fst (fst b))) /\ snd (fst (fst a)) = snd (fst (fst b)) /\
  psrel (snd (fst a)) (snd (fst b)) /\ snd a = snd b.
Lemma rpwo_sim e2 e3 l A B tp : rel 2 A B ->
  out_rel r4rel (random_point_with_order O1 e2 e3 A l tp) (random_point_with_order O2 e2 e3 B l tp).
Proof.
  intros HA. unfold random_point_with_order.
  eapply out_bind; [apply rpwo_pick_sim; eauto|]. intros [P t1] [Q t2] [H E]. cbn [fst snd] in *. subst t2.
  eapply out_bind; [apply rpwo_order_sim; eauto|]. intros [e P'] [e' Q'] [E H']. cbn [fst snd] in *. subst e'.
  constructor. split; [|split; [|split]]; cbn; auto.
Qed.

Lemma eval_iso_sim i j P Q : irel i j -> prel 2 P Q -> prel 2 (eval_iso O1 i P) (eval_iso O2 j Q).
Proof. intros (H1 & H2 & H3) []. unfold eval_iso. split; cbv zeta; cbn [pX pZ]; bnd2. Qed.
Lemma eval_iso_sims i j P Q : irel i j -> psrel P Q -> psrel (eval_iso O1 i P) (eval_iso O2 j Q).
Proof. intros (H1 & H2 & H3) []. unfold eval_iso. split; cbv zeta; cbn [pX pZ]; bnds. Qed.

Lemma solve_sim A B : rel 2 A B ->
  let s := solve_quadratic O1 A in let t := solve_quadratic O2 B in
  srel (fst (fst s)) (fst (fst t)) /\ srel (snd (fst s)) (snd (fst t)) /\ snd s = snd t.
Proof.
  intros HA. unfold solve_quadratic, fp2sqrt. cbv zeta. cbn [fst snd].
  assert (Hd : srel (o_sub O1 (o_sqr O1 A) (o_add O1 (o_add O1 (o_one O1) (o_one O1)) (o_add O1 (o_one O1) (o_one O1))))
                    (o_sub O2 (o_sqr O2 B) (o_add O2 (o_add O2 (o_one O2) (o_one O2)) (o_add O2 (o_one O2) (o_one O2)))))
    by bnds.
  pose proof (s_sqrt _ _ S _ _ Hd) as Hy.
  set (d1 := o_sqrt O1 _) in *. set (d2 := o_sqrt O2 _) in *. clearbody d1 d2. clear Hd.
  assert (H0 : srel (o_div2 O1 (o_sub O1 d1 A)) (o_div2 O2 (o_sub O2 d2 B))) by bnds.
  split; [auto|split]; [bnds|apply (s_eq _ _ S); auto; bnds].
Qed.
Definition lrel (l : list (miso O1)) (m : list (miso O2)) : Prop := Forall2 irel l m.
Lemma two_models_sim A B x y : srel A B -> srel x y -> out_rel lrel (two_models O1 A x) (two_models O2 B y).
Proof.
  intros HA Hx. unfold two_models. cbv zeta.
  assert (Hm : rel 2 (o_neg O1 (o_add O1 x x)) (o_neg O2 (o_add O2 y y))) by bnd2.
  set (m1 := o_neg O1 _) in *. set (m2 := o_neg O2 _) in *. clearbody m1 m2.
  pose proof (solve_sim _ _ Hm) as HS. cbv zeta in HS.
  destruct (solve_quadratic O1 m1) as [[s0 s1] b]; destruct (solve_quadratic O2 m2) as [[r0 r1] c].
  cbn [fst snd] in HS. destruct HS as (H0 & H1 & ->). destruct c; constructor.
  repeat constructor; cbn [iB ir iu2]; unfold fp2div; bnd2.
Qed.
Lemma all_models_sim E F : crel E F -> out_rel lrel (all_models O1 E) (all_models O2 F).
Proof.
  intros [HA HC]. unfold all_models. cbv zeta.
  pose proof (fp2div_sim _ _ _ _ HA HC) as HD.
  set (A := fp2div O1 _ _) in *. set (B := fp2div O2 _ _) in *. clearbody A B.
  pose proof (solve_sim _ _ (s_rel _ _ S _ _ HD)) as HS. cbv zeta in HS.
  destruct (solve_quadratic O1 A) as [[s0 s1] b]; destruct (solve_quadratic O2 B) as [[r0 r1] c].
  cbn [fst snd] in HS. destruct HS as (H0 & H1 & ->). destruct c; [constructor|].
  eapply out_bind; [apply two_models_sim; auto|]. intros l0 m0 L0.
  eapply out_bind; [apply two_models_sim; auto|]. intros l1 m1 L1.
  constructor. constructor; [|constructor; [|apply Forall2_app; auto]].
  - split; [|split]; cbn [iB ir iu2]; bnd2.
  - split; [|split]; cbn [iB ir iu2]; bnd2.
Qed.
Lemma fold_pick_sim l m : lrel l m -> forall i j, irel i j ->
  irel (fold_left (pick_smaller O1) l i) (fold_left (pick_smaller O2) m j).
Proof.
  induction 1 as [|a b l m H _ IH]; intros i j Hi; cbn [fold_left]; auto.
  apply IH. unfold pick_smaller. rewrite (s_lt _ _ S _ _ (iB b) (iB j)).
  - destruct (o_lt O2 _ _); auto.
  - apply H.
  - apply Hi.
Qed.
Lemma canonical_sim E F : crel E F -> out_rel irel (canonical_model O1 E) (canonical_model O2 F).
Proof.
  intros H. unfold canonical_model. eapply out_bind; [apply all_models_sim; eauto|].
  intros l m []; [constructor|]. constructor. now apply fold_pick_sim.
Qed.
Lemma change_model_sim E F : crel E F ->
  out_rel (fun a b => irel (fst a) (fst b) /\ irel (snd a) (snd b)) (change_model O1 E) (change_model O2 F).
Proof.
  intros H. unfold change_model. eapply out_bind; [apply all_models_sim; eauto|].
  intros l m [|? ? ? ? ? [|? ? ? ? ? []]]; try constructor. split; auto.
Qed.

Lemma ladder_loop_sim w m P Q A B i : prel 2 P Q -> rel 2 A B -> forall b R0 R1 R0' R1', prel 2 R0 R0' -> prel 2 R1 R1' ->
  out_rel (fun a b => fst (fst a) = fst (fst b) /\ prel 2 (snd (fst a)) (snd (fst b)) /\ prel 2 (snd a) (snd b))
    (ladder_loop O1 w m P A i b R0 R1) (ladder_loop O2 w m Q B i b R0' R1').
Proof.
  intros HP HA. induction i as [|i IH]; intros b R0 R1 R0' R1' H0 H1; cbn [ladder_loop]; [constructor; auto|].
  destruct (ladder_bit w m i) as [c| | | |]; try constructor. cbn [bind].
  assert (HS : prel 2 (fst (swap_points O1 (xorb c b) R0 R1)) (fst (swap_points O2 (xorb c b) R0' R1')) /\
               prel 2 (snd (swap_points O1 (xorb c b) R0 R1)) (snd (swap_points O2 (xorb c b) R0' R1'))).
  { unfold swap_points. destruct (xorb c b); cbn; auto. }
  destruct (swap_points O1 _ _ _) as [U V]; destruct (swap_points O2 _ _ _) as [U' V']. cbn [fst snd] in HS.
  destruct HS as [HU HV].
  destruct (xDBLADD_sim _ _ S U V U' V' (pX P) (pZ P) A (pX Q) (pZ Q) B) as [D1 D2]; auto; try apply HP.
  destruct (xDBLADD O1 U V _ _ _) as [W1 W2]; destruct (xDBLADD O2 U' V' _ _ _) as [W1' W2']. cbn [fst snd] in *.
  apply IH; now apply ps_rel.
Qed.
Lemma Ladder_sim w P Q m A B n : prel 2 P Q -> rel 2 A B -> out_rel (prel 2) (Ladder O1 w P m A n) (Ladder O2 w Q m B n).
Proof.
  intros HP HA. unfold Ladder. eapply out_bind.
  - apply ladder_loop_sim; auto.
    + unfold ladder_A24. cbv zeta. bnd2.
    + split; cbn; [apply s_rel_one|apply s_rel_zero].
  - intros [[b R0] R1] [[b' R0'] R1'] (E & H0 & H1). cbn [fst snd] in *. subst b'. constructor.
    unfold swap_points. destruct b; auto.
Qed.

(** ** Strategy traversal *)
Section Trav.
Variables (mul1 : T O1 * T O1 -> nat -> pt O1 -> pt O1) (mul2 : T O2 * T O2 -> nat -> pt O2 -> pt O2).
Variables (get1 : pt O1 -> (T O1 * T O1) * coeff3 O1) (get2 : pt O2 -> (T O2 * T O2) * coeff3 O2).
Variables (ev1 : coeff3 O1 -> pt O1 -> pt O1) (ev2 : coeff3 O2 -> pt O2 -> pt O2).
Variable k : Z.
Hypothesis Hmul : forall c d m P Q, cs_rel _ _ S k c d -> prel 2 P Q -> prel 2 (mul1 c m P) (mul2 d m Q).
Hypothesis Hget : forall P Q, prel 2 P Q -> cs_rel _ _ S k (fst (get1 P)) (fst (get2 Q)) /\ co_rel _ _ S (snd (get1 P)) (snd (get2 Q)).
Hypothesis Hev : forall c d P Q, co_rel _ _ S c d -> prel 2 P Q -> psrel (ev1 c P) (ev2 d Q).
Variables (maxr maxint : nat).

Definition strel (s : pt O1 * nat) (t : pt O2 * nat) : Prop := prel 2 (fst s) (fst t) /\ snd s = snd t.
Definition drel (a : nat * pt O1 * list (pt O1 * nat) * list nat) (b : nat * pt O2 * list (pt O2 * nat) * list nat) : Prop :=
  fst (fst (fst a)) = fst (fst (fst b)) /\ prel 2 (snd (fst (fst a))) (snd (fst (fst b))) /\
  Forall2 strel (snd (fst a)) (snd (fst b)) /\ snd a = snd b.
Lemma descend_sim fuel c d bound index P Q st st' strat :
  cs_rel _ _ S k c d -> prel 2 P Q -> Forall2 strel st st' ->
  out_rel drel (descend _ _ mul1 maxint fuel c bound index P st strat) (descend _ _ mul2 maxint fuel d bound index Q st' strat).
Proof.
  intros Hc. revert index P Q st st' strat.
  induction fuel as [|fuel IH]; intros index P Q st st' strat HP Hst; cbn [descend].
  - destruct (_ <? _)%nat; constructor. split; [|split; [|split]]; auto.
  - destruct (_ <? _)%nat; [|constructor; split; [|split; [|split]]; auto].
    rewrite (F2_length _ _ _ Hst). destruct (_ <? _)%nat; [|constructor].
    destruct strat; [constructor|]. apply IH; auto. constructor; auto. split; auto.
Qed.
Definition trel (a : (T O1 * T O1) * pt O1 * option (pt O1)) (b : (T O2 * T O2) * pt O2 * option (pt O2)) : Prop :=
  cs_rel _ _ S k (fst (fst a)) (fst (fst b)) /\ prel 2 (snd (fst a)) (snd (fst b)) /\ oprel (snd a) (snd b).
Lemma rows_sim kk : forall row c d index P Q q q' st st' strat,
  cs_rel _ _ S k c d -> prel 2 P Q -> oprel q q' -> Forall2 strel st st' ->
  out_rel trel (rows _ _ _ mul1 get1 ev1 maxr maxint kk row c index P q st strat)
               (rows _ _ _ mul2 get2 ev2 maxr maxint kk row d index Q q' st' strat).
Proof.
  induction kk as [|kk IH]; intros row c d index P Q q q' st st' strat Hc HP Hq Hst; cbn [rows].
  - constructor. split; [|split]; auto.
  - eapply out_bind; [apply descend_sim; eauto|].
    intros [[[i1 R1] s1] t1] [[[i2 R2] s2] t2] (E1 & HR & Hs & E2). cbn [fst snd] in *. subst i2 t2.
    destruct (Hget _ _ HR) as [G1 G2].
    destruct (get1 R1) as [c1 co1], (get2 R2) as [c2 co2]. cbn [fst snd] in *.
    assert (Hs' : Forall2 strel (map (fun s => (ev1 co1 (fst s), snd s)) s1) (map (fun s => (ev2 co2 (fst s), snd s)) s2)).
    { clear - Hs Hev G2. induction Hs as [|x y ? ? [Hx Hy]]; cbn [map]; constructor; auto.
      split; cbn [fst snd]; auto. apply ps_rel. now apply Hev. }
    destruct Hs' as [|[x ix] [y iy] l l' [Hx Ex] Hl]; [constructor|]. cbn [fst snd] in *. subst iy.
    apply IH; auto. destruct q, q'; cbn in *; auto; try contradiction. apply Hev; auto. now apply ps_rel.
Qed.
Lemma traverse_sim c d P Q q q' strat : cs_rel _ _ S k c d -> prel 2 P Q -> oprel q q' ->
  out_rel trel (traverse _ _ _ mul1 get1 ev1 maxr maxint c P q strat) (traverse _ _ _ mul2 get2 ev2 maxr maxint d Q q' strat).
Proof. intros. apply rows_sim; auto. Qed.
End Trav.

Variable P : params.
Lemma oprel_map f g q q' : (forall x y, psrel x y -> psrel (f x) (g y)) -> oprel q q' -> oprel (omap O1 f q) (omap O2 g q').
Proof. intros H. destruct q, q'; cbn; auto. Qed.

Definition iArel (a : option (curve O1 * option (pt O1))) (b : option (curve O2 * option (pt O2))) : Prop :=
  match a, b with
  | Some (E, q), Some (F, q') => crel E F /\ oprel q q'
  | None, None => True
  | _, _ => False
  end.
Lemma Isogeny_A_sim E F K L q q' : crel E F -> psrel K L -> oprel q q' ->
  out_rel iArel (Isogeny_A O1 P E K q) (Isogeny_A O2 P F L q').
Proof.
  intros HE HK Hq. unfold Isogeny_A.
  pose proof (AAC24_sim _ _ HE) as HC.
  destruct (AC_to_AAC24 O1 E) as [[a1 a2] a3], (AC_to_AAC24 O2 F) as [[b1 b2] b3].
  destruct HC as (C1 & C2 & C3). cbn [fst snd] in *. cbv zeta.
  pose proof (xDBLe_sims _ _ S (e2 P - 1) _ _ _ _ _ _ HK C1 C3) as HT.
  rewrite (is0_sim _ _ (proj1 HT)). clear HT.
  set (above := is0 O2 _). clearbody above.
  eapply out_bind; [apply change_model_sim; eauto|]. intros [o1 i1] [o2 i2] [Ho Hi]. cbn [fst snd] in *.
  assert (HI : irel (if above then o1 else i1) (if above then o2 else i2)) by (destruct above; auto).
  set (j1 := if above then o1 else i1) in *. set (j2 := if above then o2 else i2) in *. clearbody j1 j2.
  clear a1 a2 a3 b1 b2 b3 C1 C2 C3.
  assert (HE' : crel (mkCurve (iB j1) (o_one O1)) (mkCurve (iB j2) (o_one O2))).
  { split; cbn; [apply HI|apply s_rel_one]. }
  pose proof (AAC24_sim _ _ HE') as HC.
  destruct (AC_to_AAC24 O1 _) as [[a1 a2] a3], (AC_to_AAC24 O2 _) as [[b1 b2] b3].
  destruct HC as (C1 & C2 & C3). cbn [fst snd] in *.
  pose proof (eval_iso_sims _ _ _ _ HI HK) as HR.
  set (R := eval_iso O1 j1 K) in *. set (R' := eval_iso O2 j2 L) in *. clearbody R R'.
  assert (Hq1 : oprel (omap O1 (eval_iso O1 j1) q) (omap O2 (eval_iso O2 j2) q')).
  { apply oprel_map; auto. intros. now apply eval_iso_sims. }
  set (q1 := omap O1 _ q) in *. set (q2 := omap O2 _ q') in *. clearbody q1 q2.
  pose proof (xDBLe_sims _ _ S (e2 P - 1) _ _ _ _ _ _ HR C1 C3) as HT.
  set (U := xDBLe O1 R a1 a3 _) in *. set (U' := xDBLe O2 R' b1 b3 _) in *. clearbody U U'.
  pose proof (xDBL_sim _ _ S _ _ _ _ _ _ (ps_rel _ _ _ _ _ HT) C1 C3) as HO.
  rewrite (is0_sim _ _ (proj2 HT)), (is0_sim _ _ (proj2 HO)).
  destruct (_ || _); [constructor; exact I|]. clear HO.
  set (x := if Nat.odd (e2 P) then _ else (a1, a3, R, q1)).
  set (y := if Nat.odd (e2 P) then _ else (b1, b3, R', q2)).
  assert (Hxy : rel 4 (fst (fst (fst x))) (fst (fst (fst y))) /\ rel 2 (snd (fst (fst x))) (snd (fst (fst y))) /\
                psrel (snd (fst x)) (snd (fst y)) /\ oprel (snd x) (snd y)).
  { subst x y. destruct (Nat.odd (e2 P)).
    - pose proof (get_2_sim _ _ S _ _ (ps_rel _ _ _ _ _ HT)) as [G1 G2].
      destruct (get_2_isog O1 U), (get_2_isog O2 U'). cbn [fst snd] in *.
      split; [auto|split; [now apply s_rel|split]].
      + apply eval_2_sim; now apply ps_rel.
      + apply oprel_map; auto. intros. apply eval_2_sim; now apply ps_rel.
    - cbn [fst snd]. split; [|split; [auto|split; auto]]. eapply s_le; [|eassumption]. reflexivity. }
  clearbody x y. destruct x as [[[x1 x2] x3] x4], y as [[[y1 y2] y3] y4]. cbn [fst snd] in Hxy.
  destruct Hxy as (X1 & X2 & X3 & X4).
  eapply out_bind.
  - eapply (traverse_sim (mulm_A O1) (mulm_A O2) (get_4_isog O1) (get_4_isog O2) (eval_4_isog O1) (eval_4_isog O2) 4).
    + intros c d m V W [] HV. unfold mulm_A. apply xDBLe_sim4; auto.
    + intros V W HV. destruct (get_4_sim _ _ S V W HV) as [[G1 G2] G3]. split; auto. split; auto.
      eapply s_le; [|eassumption]. reflexivity.
    + intros. now apply eval_4_sim.
    + split; auto.
    + now apply ps_rel.
    + exact X4.
  - intros [[c1 R1] r1] [[c2 R2] r2] (_ & HR1 & Hr1). cbn [fst snd] in *.
    destruct (get_4_sim _ _ S R1 R2 HR1) as [[G1 G2] G3].
    destruct (get_4_isog O1 R1) as [[u1 u2] co], (get_4_isog O2 R2) as [[v1 v2] co']. cbn [fst snd] in *.
    constructor. split; [now apply AC24_AC_sim|]. apply oprel_map; auto.
    intros. apply eval_4_sim; auto. now apply ps_rel.
Qed.

Lemma back_B_sim f A B R R' tp : rel 2 A B -> prel 2 R R' ->
  out_rel (tprel psrel) (back_B_loop O1 P f A R tp) (back_B_loop O2 P f B R' tp).
Proof.
  intros HA HR. revert tp; induction f as [|f IH]; intros tp; cbn [back_B_loop]; [constructor|].
  eapply out_bind; [apply rpwo_sim; eauto|].
  intros [[[x1 x2] x3] x4] [[[y1 y2] y3] y4] (_ & _ & H & E). cbn [fst snd] in *. subst y4.
  rewrite (point_equal_sim _ _ _ _ (ps_rel _ _ _ _ _ H) HR). destruct (point_equal O2 _ _); auto.
  constructor; split; auto.
Qed.
Definition iBrel (a : option (curve O1 * option (pt O1) * option (pt O1))) (b : option (curve O2 * option (pt O2) * option (pt O2))) : Prop :=
  match a, b with
  | Some (E, q, r), Some (F, q', r') => crel E F /\ oprel q q' /\ oprel r r'
  | None, None => True
  | _, _ => False
  end.
Lemma Isogeny_B_sim E F K L q q' wb tp : crel E F -> psrel K L -> oprel q q' ->
  out_rel (tprel iBrel) (Isogeny_B O1 P E K q wb tp) (Isogeny_B O2 P F L q' wb tp).
Proof.
  intros HE HK Hq. unfold Isogeny_B.
  pose proof (AAC24_sim _ _ HE) as HC.
  destruct (AC_to_AAC24 O1 E) as [[a1 a2] a3], (AC_to_AAC24 O2 F) as [[b1 b2] b3].
  destruct HC as (C1 & C2 & C3). cbn [fst snd] in *. cbv zeta.
  pose proof (xTPLe_sims _ _ S (e3 P - 1) _ _ _ _ _ _ HK C2 C1) as HT.
  set (U := xTPLe O1 K _ _ _) in *. set (U' := xTPLe O2 L _ _ _) in *. clearbody U U'.
  pose proof (xTPL_sim _ _ S _ _ _ _ _ _ (ps_rel _ _ _ _ _ HT) C2 C1) as HO.
  rewrite (is0_sim _ _ (proj2 HT)), (is0_sim _ _ (proj2 HO)).
  destruct (_ || _); [constructor; split; cbn; auto|].
  eapply out_bind.
  - eapply (traverse_sim (mulm_B O1) (mulm_B O2) (get_3_isog O1) (get_3_isog O2) (eval_3_isog O1) (eval_3_isog O2) 2).
    + intros c d m V W [] HV. unfold mulm_B. apply xTPLe_sim; auto.
    + intros V W HV. now apply get_3_sim.
    + intros. now apply eval_3_sim.
    + split; auto.
    + now apply ps_rel.
    + exact Hq.
  - intros [[c1 R1] r1] [[c2 R2] r2] (Hc & HR1 & Hr1). cbn [fst snd] in *.
    apply (out_bind (tprel oprel)).
    + destruct wb; [|constructor; split; cbn; auto].
      destruct Hc as [Hc1 Hc2]. pose proof (AA24_AC_sim _ _ _ _ Hc1 Hc2) as [G1 G2].
      eapply out_bind; [apply back_B_sim; eauto; apply s_rel; now apply fp2div_sim|].
      intros [x t] [y t'] [HH E0]. cbn [fst snd] in *. subst t'. constructor. split; auto.
    + intros [x t] [y t'] [HH E']. cbn [fst snd] in *. subst t'.
      destruct (get_3_sim _ _ S R1 R2 HR1) as [[G1 G2] G3].
      destruct (get_3_isog O1 R1) as [[u1 u2] co], (get_3_isog O2 R2) as [[v1 v2] co']. cbn [fst snd] in *.
      constructor. split; auto. cbn [fst]. split; [now apply AA24_AC_sim|].
      split; apply oprel_map; auto; intros; apply eval_3_sim; auto; now apply ps_rel.
Qed.

Lemma Random_Point_loop_sim k A B l av av' tp : rel 2 A B -> oprel av av' ->
  out_rel (tprel psrel) (Random_Point_loop O1 P k A l av tp) (Random_Point_loop O2 P k B l av' tp).
Proof.
  intros HA Hav. revert tp; induction k as [|k IH]; intros tp; cbn [Random_Point_loop]; [constructor|].
  eapply out_bind; [apply rpwo_sim; eauto|].
  intros [[[x1 x2] x3] x4] [[[y1 y2] y3] y4] (H1 & E1 & H2 & E2). cbn [fst snd] in *. subst y4 y2.
  destruct (_ <? _)%nat; auto.
  assert (E : match av with Some a => point_equal O1 x3 a | None => false end =
              match av' with Some a => point_equal O2 y3 a | None => false end).
  { destruct av, av'; cbn in Hav; try contradiction; auto. apply point_equal_sim; now apply ps_rel. }
  rewrite E. destruct (match av' with Some _ => _ | None => _ end); auto. constructor; split; auto.
Qed.
Lemma Random_Point_sim E F l av av' tp : crel E F -> oprel av av' ->
  out_rel (tprel psrel) (Random_Point_AB O1 P E l av tp) (Random_Point_AB O2 P F l av' tp).
Proof. intros [HA HC] Hav. apply Random_Point_loop_sim; auto. apply s_rel; now apply fp2div_sim. Qed.

(** ** Check_Curve: the content of the uninitialised torsion points does not matter *)
Definition torrel (s : torsion O1) (t : torsion O2) : Prop :=
  th O1 s = th O2 t /\ (th O1 s = 0%nat \/ psrel (tT O1 s) (tT O2 t)).
Lemma order_loop_sim f g k : (forall x y, psrel x y -> psrel (f x) (g y)) -> forall s t x y, torrel s t -> psrel x y ->
  torrel (fst (order_loop O1 f k s x)) (fst (order_loop O2 g k t y)) /\
  psrel (snd (order_loop O1 f k s x)) (snd (order_loop O2 g k t y)).
Proof.
  intros Hf. induction k as [|k IH]; intros s t x y Hs Hx; cbn [order_loop]; [auto|].
  rewrite (is0_sim _ _ (proj2 Hx)). destruct (is0 O2 _); [auto|]. apply IH; auto.
  split; cbn [th tT]; [f_equal; apply Hs|right; auto].
Qed.
Lemma add_order_sim m c m' c' : torrel m m' -> torrel c c' -> psrel (tT O1 m) (tT O2 m') ->
  add_order O1 m c = add_order O2 m' c'.
Proof.
  intros [E1 H1] [E2 H2] Hm. unfold add_order. rewrite <- E1, <- E2.
  destruct H2 as [Z0|H2].
  - rewrite Z0, Nat.add_0_r. destruct (negb _), (negb _); reflexivity.
  - rewrite (point_equal_sim (tT O1 c) (tT O1 m) (tT O2 c') (tT O2 m')); auto; now apply ps_rel.
Qed.
Lemma check_loop_sim junk junk' k E F m2 m3 m2' m3' tp : crel E F -> torrel m2 m2' -> torrel m3 m3' ->
  psrel (tT O1 m2) (tT O2 m2') -> psrel (tT O1 m3) (tT O2 m3') ->
  out_rel (tprel eq) (check_loop O1 P junk k E m2 m3 tp) (check_loop O2 P junk' k F m2' m3' tp).
Proof.
  intros HE. revert m2 m3 m2' m3' tp; induction k as [|k IH]; intros m2 m3 m2' m3' tp H2 H3 P2 P3; cbn [check_loop]; [constructor|].
  pose proof (AAC24_sim _ _ HE) as HC.
  destruct (AC_to_AAC24 O1 E) as [[a1 a2] a3], (AC_to_AAC24 O2 F) as [[b1 b2] b3].
  destruct HC as (C1 & C2 & C3). cbn [fst snd] in *.
  eapply out_bind; [apply random_point_sim; apply HE|]. intros [R t1] [R' t2] [HR Et]. cbn [fst snd] in *. subst t2.
  cbv zeta.
  destruct (order_loop_sim (fun Q => xDBL O1 Q a1 a3) (fun Q => xDBL O2 Q b1 b3) (e2 P)
     ltac:(intros; apply xDBL_sim; auto; now apply ps_rel)
     (mkTors O1 junk 0) (mkTors O2 junk' 0) _ _ ltac:(split; cbn; auto) (xTPLe_sims _ _ S (e3 P) _ _ _ _ _ _ HR C2 C1)) as [T2 Q2].
  destruct (order_loop O1 _ (e2 P) _ _) as [c2 q2]; destruct (order_loop O2 _ (e2 P) _ _) as [c2' q2']. cbn [fst snd] in *.
  rewrite (is0_sim _ _ (proj2 Q2)). destruct (is0 O2 (pZ q2')); cbn [negb]; [|constructor; split; auto].
  rewrite (add_order_sim _ _ _ _ H2 T2 P2), (proj1 H3).
  destruct (proves_order P _ _); [constructor; split; auto|].
  rewrite (proj1 T2).
  destruct (order_loop_sim (fun Q => xTPL O1 Q a2 a1) (fun Q => xTPL O2 Q b2 b1) (e3 P)
     ltac:(intros; apply xTPL_sim; auto; now apply ps_rel)
     (mkTors O1 junk 0) (mkTors O2 junk' 0) _ _ ltac:(split; cbn; auto) (xDBLe_sims _ _ S (th O2 c2') _ _ _ _ _ _ HR C1 C3)) as [T3 Q3].
  destruct (order_loop O1 _ (e3 P) _ _) as [c3 q3]; destruct (order_loop O2 _ (e3 P) _ _) as [c3' q3']. cbn [fst snd] in *.
  rewrite (is0_sim _ _ (proj2 Q3)). destruct (is0 O2 (pZ q3')); cbn [negb]; [|constructor; split; auto].
  rewrite (add_order_sim _ _ _ _ H3 T3 P3).
  destruct (proves_order P _ _); [constructor; split; auto|].
  rewrite (proj1 H2), (proj1 T3).
  apply IH.
  - destruct (_ <? _)%nat; auto.
  - destruct (_ <? _)%nat; auto.
  - destruct (Nat.ltb_spec (th O2 m2') (th O2 c2')); auto.
    destruct T2 as [E2 [Z2|T2]]; auto. lia.
  - destruct (Nat.ltb_spec (th O2 m3') (th O2 c3')); auto.
    destruct T3 as [E3 [Z3|T3]]; auto. lia.
Qed.
Lemma Check_Curve_sim junk junk' E F tp : crel E F ->
  out_rel (tprel eq) (Check_Curve O1 P junk E tp) (Check_Curve O2 P junk' F tp).
Proof.
  intros HE. apply check_loop_sim; auto; try (split; cbn; auto; fail); split; cbn; apply s_zero.
Qed.
End ModelsSim.
