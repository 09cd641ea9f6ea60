(** Isogeny_A and Isogeny_B over a field: exact order test, codomain, images. *)
From Coq Require Import Field.
From Verif Require Import Base Out Params Ops Ec Models Fld FieldOps CurveSpec IsogSpec ModelSpec XSpec FldCurve GroupP MultP IsoP FldIsog FldModels
  XLine XIso Strategy XChain CheckP.
Set Bullet Behavior "Strict Subproofs".

(** What the parameters must satisfy: the numbers of steps, and the strategy tables. *)
Definition strat_good (P : params) : Prop :=
  (2 <= e2 P)%nat /\ (1 <= e3 P)%nat /\ max_alice P = (e2 P / 2)%nat /\ max_bob P = e3 P /\
  strat_ok (max_alice P) (max_int_alice P) (strat_alice P) = true /\ strat_ok (max_bob P) (max_int_bob P) (strat_bob P) = true.

Section XG.
Variable F : fld.
Variables (unit : F) (sqrt : F -> F) (lt : F -> F -> bool) (enc : F -> list Z) (dec : list Z -> F) (rnd : tape -> out (F * tape)).
Local Notation O := (fld_ops F unit sqrt lt enc dec rnd).
Hypothesis two : (kadd k1 k1 : F) <> k0.
Hypothesis sqrt_ok : forall x z : F, x = kmul z z -> kmul (sqrt x) (sqrt x) = x.
Local Open Scope fld_scope.
Definition kth9 := kth F.
Add Field KF9 : kth9.
Ltac fsd := repeat match goal with |- _ /\ _ => split end;
  first [assumption | exact two | exact (four_nz F two) | apply (neg_nz F); assumption].
Ltac opn := cbn [fld_ops o_add o_sub o_madd o_msub o_mul o_sqr o_zero o_one fst snd pX pZ co0 co1 co2].
Ltac toF_eq := match goal with |- ?a = ?b => change (@eq (K F) a b) end.
Ltac rng := toF_eq; ring.
Notation repp := (repp F unit sqrt lt enc dec rnd).
Notation orelp := (orel O (xl F) repp).
Notation crel4 := (crel4 F). Notation crel3 := (crel3 F). Notation ord4 := (ord4 F). Notation ord3 := (ord3 F).

Lemma is0_dec (x : F) : is0 O x = if kdec x 0 then true else false. Proof. reflexivity. Qed.
Lemma repZ (Q : pt O) q : repp Q q -> is0 O (pZ Q) = match q with XInf => true | XF _ => false end.
Proof. intros H. rewrite is0_dec. destruct q as [|x], H as [H1 H2]; destruct (kdec _ _) as [E|N]; auto; contradiction. Qed.
Lemma repX0 (Q : pt O) q : repp Q q -> is0 O (pX Q) = match q with XInf => false | XF x => if kdec x 0 then true else false end.
Proof.
  intros H. rewrite is0_dec. destruct q as [|x], H as [H1 H2]; destruct (kdec (pX Q) 0) as [E|N]; auto; try contradiction.
  - destruct (kdec x 0) as [|Nx]; auto. exfalso. apply (mul_nz F x (pZ Q)); auto. now rewrite <- H2.
  - destruct (kdec x 0) as [->|]; auto. exfalso. apply N. rewrite H2. ring.
Qed.
Lemma coef4 (E : curve O) (A : F) : cC E <> 0 -> cA E = A * cC E -> A * A <> 4 -> crel4 (fst (fst (AC_to_AAC24 O E)), snd (AC_to_AAC24 O E)) A.
Proof.
  destruct E as [a c]. unfold AC_to_AAC24, XChain.crel4. opn. cbn [cA cC]. intros HC HE HA. repeat split; auto.
  - replace (c + c + (c + c)) with (4 * c) by rng. apply (mul_nz F); auto. apply (four_nz F two).
  - rewrite HE. rng.
Qed.
Lemma coef3 (E : curve O) (A : F) : cC E <> 0 -> cA E = A * cC E -> A * A <> 4 ->
  crel3 (snd (fst (AC_to_AAC24 O E)), fst (fst (AC_to_AAC24 O E))) A.
Proof.
  destruct E as [a c]. unfold AC_to_AAC24, XChain.crel3. opn. cbn [cA cC]. intros HC HE HA. split; auto. exists c.
  rewrite HE. repeat split; auto; rng.
Qed.
Lemma back4 c A : crel4 c A -> cC (AC24_to_AC O (fst c) (snd c)) <> 0 /\ cA (AC24_to_AC O (fst c) (snd c)) = A * cC (AC24_to_AC O (fst c) (snd c)).
Proof.
  intros (HA & Hc & He). unfold AC24_to_AC. opn. cbn [cA cC]. split; auto.
  transitivity (4 * fst c - 2 * snd c); [rng|]. rewrite He. rng.
Qed.
Lemma back3 c A : crel3 c A -> cC (AA24_to_AC O (fst c) (snd c)) <> 0 /\ cA (AA24_to_AC O (fst c) (snd c)) = A * cC (AA24_to_AC O (fst c) (snd c)).
Proof.
  intros (HA & s & Hs & Em & Ep). unfold AA24_to_AC. opn. cbn [cA cC]. rewrite Em, Ep. split.
  - replace ((A + 2) * s + (A - 2) * s - ((A - 2) * s + (A - 2) * s)) with (4 * s) by rng. apply (mul_nz F); auto. apply (four_nz F two).
  - rng.
Qed.
Lemma orel_map (f : pt O -> pt O) Q r r' : (forall S, repp S r -> repp (f S) r') -> orelp Q r -> orelp (omap O f Q) r'.
Proof. intros Hf. destruct Q; cbn; auto. Qed.
Lemma omap_none (f : pt O -> pt O) Q : omap O f Q = None <-> Q = None. Proof. destruct Q; cbn; split; congruence. Qed.

Lemma point_equal_xf (Q R : pt O) (x k : F) : repp Q (XF x) -> repp R (XF k) -> point_equal O Q R = (if kdec x k then true else false).
Proof.
  intros [H1 H2] [H3 H4]. unfold point_equal, proj_equal. cbn [o_eq o_mul fld_ops]. rewrite H2, H4.
  destruct (kdec x k) as [->|N]; destruct (kdec _ _) as [E|N2]; auto; exfalso.
  - apply N2. ring.
  - apply N. apply (mul_cancel F) with (pZ Q * pZ R); [now apply (mul_nz F)|]. transitivity (x * pZ Q * pZ R); [rng|]. rewrite E. rng.
Qed.

Lemma div_eq (x z a : F) : z <> 0 -> x = a * z -> fp2div O x z = a.
Proof. intros Nz ->. rewrite (fp2div_field F unit sqrt lt enc dec rnd). toF_eq. field. exact Nz. Qed.

(** ** Random points *)
Lemma rp_consts_eq (A : F) : rp_consts O A = (A + 2, A - 2, 4).
Proof. unfold rp_consts. opn. f_equal. rng. Qed.
Lemma rpwo_order_ok (A : F) l2 f : A * A <> 4 -> forall e q Q e' Q', q <> XInf -> repp Q q ->
  rpwo_order O f l2 A Q e = Ok (e', Q') ->
  exists d x, e' = (e + d)%nat /\ let st := if l2 then dblx A else tplx A in Nat.iter d st q = XF x /\ repp Q' (XF x) /\ st (XF x) = XInf.
Proof.
  intros HA. induction f as [|f IH]; intros e q Q e' Q' Nq HQ; cbn [rpwo_order]; [discriminate|]. rewrite rp_consts_eq.
  set (T := if l2 then _ else _). pose (st := if l2 then dblx A else tplx A).
  assert (HT : repp T (st q)).
  { unfold T, st. destruct l2.
    - apply (dbl_rep F unit sqrt lt enc dec rnd two A HA); auto; [apply (four_nz F two)|rng].
    - apply (tpl_rep F unit sqrt lt enc dec rnd two A HA) with (s := 1); auto; [apply (one_nz F)|rng|rng]. }
  clearbody T. rewrite (repZ _ _ HT). destruct (st q) as [|x] eqn:Es.
  - intros E. injection E as <- <-. destruct q as [|x]; [contradiction|]. exists 0%nat, x. repeat split; try apply HQ; [lia|exact Es].
  - intros E. apply (IH _ (XF x)) in E as (d & y & -> & E1 & E2 & E3); auto; [|discriminate]. exists (S d), y. split; [lia|]. fold st in E1, E3 |- *.
    split; [|auto]. replace (S d) with (d + 1)%nat by lia. rewrite iter_plus. transitivity (Nat.iter d st (st q)); [reflexivity|]. now rewrite Es.
Qed.
Lemma rpwo_pick_ok (A : F) e2 e3 l2 f : A * A <> 4 -> forall tp R tp', rpwo_pick O e2 e3 f l2 A tp = Ok (R, tp') -> exists q, q <> XInf /\ repp R q /\
   exists x y, on A 1 (Aff x y) /\ q = (if l2 then Nat.iter e3 (tplx A) (XF x) else Nat.iter e2 (dblx A) (XF x)).
Proof.
  intros HA. induction f as [|f IH]; intros tp R tp'; cbn [rpwo_pick]; [discriminate|]. rewrite rp_consts_eq.
  destruct (random_point O A tp) as [[R0 t1]| | | |] eqn:ER; cbn [bind]; try discriminate.
  apply (CheckP.random_point_on F unit sqrt lt enc dec rnd) in ER as (x & y & -> & Hon).
  set (T := if l2 then _ else _). assert (H1 : repp (@mkPt O x 1) (XF x)) by (split; [apply (one_nz F)|exact (CheckP.one_r F x)]).
  assert (HT : repp T (if l2 then Nat.iter e3 (tplx A) (XF x) else Nat.iter e2 (dblx A) (XF x))).
  { unfold T. destruct l2.
    - apply (tple_rep F unit sqrt lt enc dec rnd two A HA) with (s := 1); auto; [apply (one_nz F)|rng|rng].
    - apply (dble_rep F unit sqrt lt enc dec rnd two A HA); auto; [apply (four_nz F two)|rng]. }
  clearbody T. rewrite (repZ _ _ HT). destruct (if l2 then _ else _) as [|z] eqn:Ez; [apply IH|]. intros E. injection E as <- <-.
  exists (XF z). split; [discriminate|]. split; [exact HT|]. exists x, y. auto.
Qed.
Lemma rpwo_ok (A : F) e2 e3 l2 tp R e Q tp' : A * A <> 4 -> random_point_with_order O e2 e3 A l2 tp = Ok (R, e, Q, tp') ->
  exists q x, repp R q /\ repp Q (XF x) /\ (1 <= e)%nat /\ (if l2 then xord2 A e q else xord3 A e q) /\
    Nat.iter (e - 1) (if l2 then dblx A else tplx A) q = XF x /\
    exists x0 y0, on A 1 (Aff x0 y0) /\ q = (if l2 then Nat.iter e3 (tplx A) (XF x0) else Nat.iter e2 (dblx A) (XF x0)).
Proof.
  intros HA. unfold random_point_with_order. destruct (rpwo_pick _ _ _ _ _ _ _) as [[R0 t1]| | | |] eqn:E1; cbn [bind]; try discriminate.
  apply rpwo_pick_ok in E1 as (q & Nq & HR & Hx); auto.
  destruct (rpwo_order _ _ _ _ _ _) as [[e' Q']| | | |] eqn:E2; cbn [bind]; try discriminate. intros E. injection E as <- <- <- <-.
  apply (rpwo_order_ok A l2 _ HA 1 q) in E2 as (d & x & -> & E3 & E4 & E5); auto.
  exists q, x. replace (1 + d - 1)%nat with d by lia. split; [auto|]. split; [auto|]. split; [lia|]. split; [|split; [destruct l2; exact E3|exact Hx]].
  cbv zeta in E3, E5. assert (H1 : (1 <= 1 + d)%nat) by lia.
  destruct l2; [apply (proj2 (xord2_two F unit sqrt lt enc dec rnd A _ q H1))|apply (proj2 (xord3_two F unit sqrt lt enc dec rnd A _ q H1))]; replace (1 + d - 1)%nat with d by lia; rewrite E3; split; auto; discriminate.
Qed.

(** ** The pair (0 : 0) *)
Lemma dbl_00 (a c : F) : xDBL O (@mkPt O (0 : F) (0 : F)) a c = @mkPt O (0 : F) (0 : F).
Proof. unfold xDBL. opn. f_equal; rng. Qed.
Lemma tpl_00 (a c : F) : xTPL O (@mkPt O (0 : F) (0 : F)) a c = @mkPt O (0 : F) (0 : F).
Proof. unfold xTPL. opn. f_equal; rng. Qed.
Lemma dble_00 (a c : F) n : xDBLe O (@mkPt O (0 : F) (0 : F)) a c n = @mkPt O (0 : F) (0 : F).
Proof. unfold xDBLe. induction n as [|n IH]; [reflexivity|]. rewrite iter_S, IH. apply dbl_00. Qed.
Lemma tple_00 (a c : F) n : xTPLe O (@mkPt O (0 : F) (0 : F)) a c n = @mkPt O (0 : F) (0 : F).
Proof. unfold xTPLe. induction n as [|n IH]; [reflexivity|]. rewrite iter_S, IH. apply tpl_00. Qed.
Lemma is0_0 : is0 O (0 : F) = true. Proof. rewrite is0_dec. destruct (kdec _ _); auto; try contradiction. Qed.
Lemma Isogeny_B_00 P (E : curve O) Q wb tp : Isogeny_B O P E (@mkPt O (0 : F) (0 : F)) Q wb tp = Ok (None, tp).
Proof.
  unfold Isogeny_B. destruct (AC_to_AAC24 O E) as [[ap am] cc]. rewrite tple_00. cbn [pZ]. now rewrite is0_0.
Qed.
Lemma eval_iso_00 m : eval_iso O m (@mkPt O (0 : F) (0 : F)) = @mkPt O (0 : F) (0 : F).
Proof. unfold eval_iso. opn. f_equal; rng. Qed.
Lemma Isogeny_A_00 P (E : curve O) (A : F) : cC E <> 0 -> cA E = A * cC E -> full4 A -> forall Q, Isogeny_A O P E (@mkPt O (0 : F) (0 : F)) Q = Ok None.
Proof.
  intros HC HE H4 Q. unfold Isogeny_A. destruct (AC_to_AAC24 O E) as [[ap am] cc].
  assert (EA : cA E / cC E = A). { rewrite HE. toF_eq. field. exact HC. }
  destruct (all_models_ok F unit sqrt lt enc dec rnd two sqrt_ok E HC) as (ms & Em & _ & Hall & _ & rest & Eq & Hr); [rewrite EA; exact H4|].
  unfold change_model. rewrite Em, Eq. destruct rest as [|other rest]; [contradiction|]. cbn [bind].
  set (iso := if is0 O (pX (xDBLe O _ ap cc (e2 P - 1))) then other else @mkIso O _ _ _). clearbody iso. destruct (AC_to_AAC24 O _) as [[ap0 am0] cc0]. rewrite eval_iso_00, dble_00. cbn [pZ]. now rewrite is0_0.
Qed.

(** ** Degree 3 *)
Variable P : params.
Hypothesis HS : strat_good P.
Section B.
Variables (E : curve O) (A : F).
Hypothesis HC : cC E <> 0.
Hypothesis HE : cA E = A * cC E.
Hypothesis HA : A * A <> 4.
Variables (Kp : pt O) (Q : option (pt O)) (q r : xl F).
Hypothesis HK : repp Kp q.
Hypothesis HQ : orelp Q r.
Lemma Isogeny_B_no wb tp : ~ xord3 A (e3 P) q -> Isogeny_B O P E Kp Q wb tp = Ok (None, tp).
Proof.
  intros N. destruct HS as (_ & He3 & _). unfold Isogeny_B. pose proof (coef3 E A HC HE HA) as Hc. destruct (AC_to_AAC24 O E) as [[ap am] cc]. cbn [fst snd] in Hc.
  destruct Hc as (_ & s & Hs & Em & Ep). cbn [fst snd] in Em, Ep.
  pose proof (tple_rep F unit sqrt lt enc dec rnd two A HA (e3 P - 1) Kp am ap s q HK Hs Em Ep) as HT.
  pose proof (tpl_rep F unit sqrt lt enc dec rnd two A HA _ am ap s _ HT Hs Em Ep) as HN.
  rewrite (repZ _ _ HT), (repZ _ _ HN).
  destruct (Nat.iter (e3 P - 1) (tplx A) q) as [|k] eqn:ET; [reflexivity|].
  destruct (tplx A (XF k)) as [|x] eqn:EN; [|reflexivity]. exfalso. apply N.
  apply (xord3_two F unit sqrt lt enc dec rnd A _ _ He3). rewrite ET. split; [discriminate|exact EN].
Qed.
Lemma Isogeny_B_yes wb tp : xord3 A (e3 P) q ->
  exists A1 R1 k1 Q' E',
    Isogeny_B O P E Kp Q wb tp =
      (do (back, tp) <- (if wb then do (b, tp) <- back_B_loop O P (S (length tp)) A1 R1 tp;; Ok (Some b, tp) else Ok (None, tp));;
       Ok (Some (E', Q', omap O (eval_3_isog O (snd (get_3_isog O R1))) back), tp)) /\
    A1 * A1 <> 4 /\ ker3 A1 k1 /\ repp R1 (XF k1) /\ cC E' <> 0 /\ cA E' = A3 A1 k1 * cC E' /\
    (exists r1, chain3 (e3 P) A q r = Some (A3 A1 k1, phi3x k1 r1) /\ orelp Q' (phi3x k1 r1)) /\ (Q' = None <-> Q = None) /\
    chain3 (e3 P - 1) A (tplx A q) q = Some (A1, XF k1).
Proof.
  intros Ho. destruct HS as (_ & He3 & _ & Hmb & _ & Hst). unfold Isogeny_B. pose proof (coef3 E A HC HE HA) as Hc.
  destruct (AC_to_AAC24 O E) as [[ap am] cc]. cbn [fst snd] in Hc. pose proof Hc as (_ & s & Hs & Em & Ep). cbn [fst snd] in Em, Ep.
  pose proof (tple_rep F unit sqrt lt enc dec rnd two A HA (e3 P - 1) Kp am ap s q HK Hs Em Ep) as HT.
  pose proof (tpl_rep F unit sqrt lt enc dec rnd two A HA _ am ap s _ HT Hs Em Ep) as HN.
  rewrite (repZ _ _ HT), (repZ _ _ HN). apply (xord3_two F unit sqrt lt enc dec rnd A _ _ He3) in Ho as [Ho1 Ho2].
  destruct (Nat.iter (e3 P - 1) (tplx A) q) as [|k] eqn:ET; [contradiction|]. rewrite Ho2. cbn [negb orb].
  assert (Ho : ord3 (max_bob P) A q) by (exists k; rewrite Hmb; auto).
  destruct (traverse3 F unit sqrt lt enc dec rnd two (max_bob P) (max_int_bob P) (am, ap) A Kp Q r q (strat_bob P) Hst Hc Ho HK HQ)
    as (c' & R' & Q' & A1 & k1 & ks & E1 & Hc' & Hk1 & HR' & HQ' & HW & HW1 & HI1 & HN1 & HN2).
  rewrite E1. cbn [bind]. destruct (back3 _ _ Hc') as [B1 B2]. pose proof Hc' as (HA1 & _).
  assert (ED : fp2div O (cA (AA24_to_AC O (fst c') (snd c'))) (cC (AA24_to_AC O (fst c') (snd c'))) = A1).
  { exact (div_eq _ _ A1 B1 B2). }
  cbv zeta. rewrite ED. pose proof (get3_rep F unit sqrt lt enc dec rnd two A1 HA1 k1 Hk1 R' HR') as (s' & Hs' & Gm & Gp).
  pose proof (fun S q => ev3_rep F unit sqrt lt enc dec rnd two A1 HA1 k1 Hk1 R' S q HR') as Hev.
  pose proof (cod3 F unit sqrt lt enc dec rnd two A1 HA1 k1 Hk1) as HA3.
  destruct (get_3_isog O R') as [[am' ap'] coeff] eqn:EG. cbn [fst snd] in *.
  assert (Hc3 : crel3 (am', ap') (A3 A1 k1)) by (split; [auto|exists s'; auto]). destruct (back3 _ _ Hc3) as [D1 D2]. cbn [fst snd] in D1, D2.
  pose proof (walk_chain3 F _ _ _ _ _ r HW) as Hch. rewrite Hmb in Hch. rewrite image_snoc in Hch.
  exists A1, R', k1, (omap O (eval_3_isog O coeff) Q'), (AA24_to_AC O am' ap'). split; [rewrite EG; reflexivity|]. split; [auto|]. split; [auto|].
  split; [auto|]. split; [auto|]. split; [auto|]. split; [|split].
  - eexists. split; [exact Hch|]. revert HQ'. apply orel_map. intros S HS0. apply Hev. exact HS0.
  - rewrite omap_none. split; [|auto]. intros ->. destruct Q; auto. exfalso. apply HN2; [discriminate|auto].
  - rewrite Hmb in HW1. rewrite (walk_chain3 F _ _ _ _ _ q HW1). now rewrite HI1.
Qed.
End B.

(** The kernel of the dual of a step of degree 3: the images of the points of order 3 outside the kernel. *)
Lemma two_ker3 (A k x : F) : ker3 A k -> ker3 A x -> x <> k -> 3 <> (0 : F) /\ k <> 0 /\ phi3x k (XF x) = XF (- (1) / (3 * k)).
Proof.
  unfold ker3. cbn [tplx]. destruct (kdec (div3 A k) 0) as [Ek|]; [|discriminate]. destruct (kdec (div3 A x) 0) as [Ex|]; [|discriminate]. intros _ _ Nx.
  unfold div3 in Ek, Ex. pose proof (four_nz F two) as N4.
  assert (Nd : x - k <> 0) by (intros E0; apply Nx; apply (sub_eq F); exact E0).
  assert (Nk : k <> 0).
  { intros ->. apply (one_nz F). transitivity (- (3 * (0 * 0 * (0 * 0)) + 4 * (A * (0 * 0 * 0)) + 2 * (3 * (0 * 0)) - 1)); [ring|rewrite Ek; ring]. }
  set (c := 3 * (x * x * x) + (4 * A + 3 * k) * (x * x) + (2 * 3 + 4 * (A * k) + 3 * (k * k)) * x + (2 * 3 * k + 4 * (A * (k * k)) + 3 * (k * k * k))).
  assert (Ec : c = 0).
  { apply (mul_cancel F) with (x - k); [exact Nd|]. transitivity (0 : F); [|ring]. unfold c.
    transitivity (3 * (x * x * (x * x)) + 4 * (A * (x * x * x)) + 2 * (3 * (x * x)) - 1 - (3 * (k * k * (k * k)) + 4 * (A * (k * k * k)) + 2 * (3 * (k * k)) - 1)); [ring|].
    rewrite Ek, Ex. ring. }
  assert (N3 : 3 <> (0 : F)).
  { intros E3. assert (EA : 4 * (A * (k * k * k)) = 1).
    { transitivity (3 * (k * k * (k * k)) + 4 * (A * (k * k * k)) + 2 * (3 * (k * k)) - 1 + 1 - 3 * (k * k * (k * k) + 2 * (k * k))); [ring|]. rewrite Ek, E3. ring. }
    assert (EB : 4 * (A * (x * x * x)) = 1).
    { transitivity (3 * (x * x * (x * x)) + 4 * (A * (x * x * x)) + 2 * (3 * (x * x)) - 1 + 1 - 3 * (x * x * (x * x) + 2 * (x * x))); [ring|]. rewrite Ex, E3. ring. }
    assert (NA : 4 * A <> 0).
    { intros E0. apply (one_nz F). rewrite <- EA. transitivity (4 * A * (k * k * k)); [ring|rewrite E0; ring]. }
    assert (EC : (x - k) * ((x - k) * (x - k)) = 0).
    { apply (mul_cancel F) with (4 * A); [exact NA|].
      transitivity (4 * (A * (x * x * x)) - 4 * (A * (k * k * k)) - 3 * (4 * A * (x * k * (x - k)))); [ring|]. rewrite EA, EB, E3. ring. }
    revert EC. apply (mul_nz F); auto. apply (mul_nz F); auto. }
  split; [auto|]. split; [auto|]. cbn [phi3x]. destruct (kdec x k) as [|_]; [contradiction|]. f_equal.
  assert (E1 : (2 * 3 * k + 4 * (A * (k * k)) + 3 * (k * k * k)) * k = 1).
  { transitivity (3 * (k * k * (k * k)) + 4 * (A * (k * k * k)) + 2 * (3 * (k * k)) - 1 + 1); [ring|]. rewrite Ek. ring. }
  assert (E2 : 4 * A = (1 - 2 * 3 * k * k - 3 * (k * k * k * k)) / (k * k * k)).
  { transitivity (((2 * 3 * k + 4 * (A * (k * k)) + 3 * (k * k * k)) * k - 2 * 3 * k * k - 3 * (k * k * k * k)) / (k * k * k)); [field; auto|]. rewrite E1. reflexivity. }
  assert (G : x * ((k * x - 1) * (k * x - 1)) - - (1) / (3 * k) * ((x - k) * (x - k)) = k * k / 3 * c).
  { unfold c. replace (4 * (A * k)) with (4 * A * k) by ring. replace (4 * (A * (k * k))) with (4 * A * (k * k)) by ring. rewrite E2. field. auto. }
  rewrite Ec in G. replace (x * ((k * x - 1) * (k * x - 1))) with (- (1) / (3 * k) * ((x - k) * (x - k))).
  - field. auto.
  - symmetry. apply (sub_eq F). rewrite G. ring.
Qed.
Lemma back_B_ok (A : F) R k : A * A <> 4 -> repp R (XF k) -> forall f tp b tp', back_B_loop O P f A R tp = Ok (b, tp') ->
  exists x, x <> k /\ ker3 A x /\ repp b (XF x).
Proof.
  intros HA HR. induction f as [|f IH]; intros tp b tp'; cbn [back_B_loop]; [discriminate|].
  destruct (random_point_with_order O (e2 P) (e3 P) A false tp) as [[[[R0 e] b0] t1]| | | |] eqn:ER; cbn [bind]; try discriminate.
  apply (rpwo_ok A _ _ _ _ _ _ _ _ HA) in ER as (q & x & _ & Hb & He & Ho & Ex & _).
  rewrite (point_equal_xf _ _ _ _ Hb HR). destruct (kdec x k) as [_|N]; [apply IH|]. intros E. injection E as <- <-. exists x. split; [auto|]. split; [|auto].
  unfold ker3. rewrite <- Ex. cbn [negb] in Ho. apply (proj1 (xord3_two F unit sqrt lt enc dec rnd A _ _ He)) in Ho as [_ Ho]. exact Ho.
Qed.

(** ** Degree 2 and 4 *)
Lemma isox_id (q : xl F) : isox 0 1 q = q.
Proof. destruct q as [|x]; [reflexivity|]. cbn. f_equal. field. apply (one_nz F). Qed.
Lemma next2 (A : F) n q k : A * A <> 4 -> (1 <= n)%nat -> Nat.iter (2 * n) (dblx A) q = XF k -> ker2 A k -> ord4 n (A2 k) (phi2x k q).
Proof using two unit sqrt lt enc dec rnd.
  clear sqrt_ok.
  intros HA Hn Ek Hk. pose proof Hk as [Nk Hk2].
  assert (HI : forall j, Nat.iter j (dblx (A2 k)) (phi2x k q) = phi2x k (Nat.iter j (dblx A) q)).
  { induction j as [|j IH]; [reflexivity|]. rewrite !iter_S, IH. symmetry. apply (phi2_dblx F unit sqrt lt enc dec rnd two A HA k Hk). }
  unfold XChain.ord4. rewrite HI. replace (2 * n)%nat with (S (2 * n - 1)) in Ek by lia. rewrite iter_S in Ek.
  set (T := Nat.iter (2 * n - 1) (dblx A) q) in *. clearbody T. clear HI.
  assert (C : dblx (A2 k) (phi2x k T) = XInf).
  { rewrite <- (phi2_dblx F unit sqrt lt enc dec rnd two A HA k Hk), Ek. apply (phi2x_inf F unit sqrt lt enc dec rnd). auto. }
  destruct (phi2x k T) as [|m'] eqn:EP.
  - apply (phi2x_inf F unit sqrt lt enc dec rnd) in EP as [-> | ->]; [discriminate Ek|congruence].
  - exists m'. split; [|auto]. intros ->. destruct T as [|x]; [discriminate Ek|]. cbn [phi2x] in EP. destruct (kdec x k) as [|N]; [discriminate|]. injection EP as EP.
    assert (Nd : x - k <> 0) by (intros E0; apply N; apply (sub_eq F); exact E0).
    assert (E0 : x * (k * x - 1) = 0).
    { transitivity (x * (k * x - 1) / (x - k) * (x - k)); [field; auto|rewrite EP; ring]. }
    assert (Ef : fx A x = 0).
    { cbn in Hk2. destruct (kdec (fx A k) 0) as [Ef|]; [|discriminate]. unfold fx in *.
      destruct (kdec x 0) as [->|Nx]; [ring|]. assert (E2 : k * x = 1).
      { apply (mul_cancel F) with x; [auto|]. transitivity (x * (k * x - 1) + x); [ring|rewrite E0; ring]. }
      apply (mul_cancel F) with (k * k * (k * k)); [apply (mul_nz F); apply (mul_nz F); auto|].
      transitivity (k * k * k + A * (k * k) + k); [|rewrite Ef; ring].
      transitivity (k * x * (k * x) * (k * x) * k + A * (k * x * (k * x)) * (k * k) + k * x * (k * k * k)); [ring|]. rewrite E2. ring. }
    cbn in Ek. rewrite Ef in Ek. destruct (kdec 0 0); [discriminate|contradiction].
Qed.
(** The model chosen by change_model. *)
Definition other_model (A : F) : F * F * F :=
  match all_models O (@mkCurve O A 1) with
  | Ok (_ :: _ :: i :: _) => (iB i, ir i, iu2 i)
  | _ => (A, 0, 1)
  end.
Lemma all_models_coef (E : curve O) (A : F) : cC E <> 0 -> cA E = A * cC E -> all_models O E = all_models O (@mkCurve O A 1).
Proof.
  intros HC HE. unfold all_models. cbn [cA cC]. rewrite (div_eq _ _ A HC HE). rewrite (div_eq A 1 A (one_nz F) (CheckP.one_r F A)). reflexivity.
Qed.
Section A.
Variables (E : curve O) (A : F).
Hypothesis HC : cC E <> 0.
Hypothesis HE : cA E = A * cC E.
Hypothesis H4 : full4 A.
Variables (Kp : pt O) (Q : option (pt O)) (q r : xl F).
Hypothesis HK : repp Kp q.
Hypothesis HQ : orelp Q r.
Lemma Isogeny_A_ok :
  (xord2 A (e2 P) q -> exists E' Q' A' r',
     Isogeny_A O P E Kp Q = Ok (Some (E', Q')) /\ quotient2 (e2 P) A q r A' r' /\
     A' * A' <> 4 /\ cC E' <> 0 /\ cA E' = A' * cC E' /\ orelp Q' r' /\ (Q' = None <-> Q = None) /\
     quot2 other_model (e2 P) A q r = Some (A', r')) /\
  (~ xord2 A (e2 P) q -> Isogeny_A O P E Kp Q = Ok None).
Proof.
  pose proof HS as (He2 & _ & Hma & _ & Hst & _). pose proof H4 as (HA & _). unfold Isogeny_A.
  pose proof (coef4 E A HC HE HA) as Hc. destruct (AC_to_AAC24 O E) as [[ap am] cc]. cbn [fst snd] in Hc. destruct Hc as (_ & Hcc & Hca).
  cbn [fst snd] in Hcc, Hca.
  pose proof (dble_rep F unit sqrt lt enc dec rnd two A HA (e2 P - 1) Kp ap cc q HK Hcc Hca) as HT0. rewrite (repX0 _ _ HT0).
  assert (EA : cA E / cC E = A). { rewrite HE. toF_eq. field. exact HC. }
  destruct (all_models_ok F unit sqrt lt enc dec rnd two sqrt_ok E HC) as (ms & Em & _ & Hall & _ & rest & Eq & Hr); [rewrite EA; exact H4|].
  rewrite EA in *. unfold change_model. rewrite Em, Eq. destruct rest as [|other rest]; [contradiction|]. cbn [bind].
  set (T0 := Nat.iter (e2 P - 1) (dblx A) q) in *.
  set (above := match T0 with XF x => if kdec x 0 then true else false | XInf => false end).
  set (iso := if above then other else @mkIso O A 0 1).
  assert (HO : match T0 with XF x => if kdec x 0 then other_model A else (A, 0, 1) | XInf => (A, 0, 1) end = (iB iso, ir iso, iu2 iso)).
  { unfold other_model. rewrite <- (all_models_coef E A HC HE), Em, Eq. unfold iso, above.
    destruct T0 as [|x0]; [reflexivity|]. destruct (kdec x0 0); reflexivity. }
  assert (HI : iso_to A (iB iso) (ir iso) (iu2 iso) /\ (if above then (ir iso : F) <> 0 else (ir iso : F) = 0 /\ (iu2 iso : F) = 1 /\ (iB iso : F) = A)).
  { rewrite Eq, Forall_forall in Hall. unfold iso. destruct above.
    - split; [apply Hall; cbn; auto|]. apply Hr.
    - split; [apply (Hall (@mkIso O A 0 1)); cbn; auto|]. cbn. auto. }
  destruct HI as [HI Hcase]. clearbody iso.
  set (A0 := iB iso : F) in *. set (r0 := ir iso : F) in *. set (u0 := iu2 iso : F) in *.
  assert (H40 : full4 A0) by (exact (iso_full4 F A A0 r0 u0 H4 HI)). pose proof H40 as (HA0 & _).
  assert (Hc0 : crel4 (fst (fst (AC_to_AAC24 O (@mkCurve O A0 1))), snd (AC_to_AAC24 O (@mkCurve O A0 1))) A0).
  { apply coef4; auto; cbn; [apply (one_nz F)|exact (CheckP.one_r F A0)]. }
  change (o_one O) with (1 : F). destruct (AC_to_AAC24 O (@mkCurve O A0 1)) as [[ap0 am0] cc0]. cbn [fst snd] in Hc0.
  pose proof (evaliso_rep F unit sqrt lt enc dec rnd A A0 r0 u0 HI iso Kp q eq_refl eq_refl HK) as HK0.
  set (q0 := isox r0 u0 q) in *. set (K0 := eval_iso O iso Kp) in *. clearbody K0.
  assert (HQ0 : orelp (omap O (eval_iso O iso) Q) (isox r0 u0 r)).
  { apply (orel_map _ Q r); auto. intros S HS0. exact (evaliso_rep F unit sqrt lt enc dec rnd A A0 r0 u0 HI iso S r eq_refl eq_refl HS0). }
  assert (HQN : omap O (eval_iso O iso) Q = None <-> Q = None) by apply omap_none.
  set (Q0 := omap O (eval_iso O iso) Q) in *. clearbody Q0. set (rr := isox r0 u0 r) in *.
  pose proof Hc0 as (_ & Hcc0 & Hca0). cbn [fst snd] in Hcc0, Hca0.
  pose proof (dble_rep F unit sqrt lt enc dec rnd two A0 HA0 (e2 P - 1) K0 ap0 cc0 q0 HK0 Hcc0 Hca0) as HT.
  pose proof (dbl_rep F unit sqrt lt enc dec rnd two A0 HA0 _ ap0 cc0 _ HT Hcc0 Hca0) as HN.
  rewrite (repZ _ _ HT), (repZ _ _ HN).
  assert (ETT : Nat.iter (e2 P - 1) (dblx A0) q0 = isox r0 u0 T0).
  { unfold q0, T0. symmetry. apply (isox_iter F two A A0 r0 u0 HI HA HA0). }
  assert (He1 : (1 <= e2 P)%nat) by lia.
  pose proof (isox_ord F two A A0 r0 u0 HI HA HA0 (e2 P) q) as HO2. fold q0 in HO2. rewrite HO2. rewrite (xord2_two F unit sqrt lt enc dec rnd A0 _ q0 He1).
  destruct (Nat.iter (e2 P - 1) (dblx A0) q0) as [|k] eqn:ET.
  { split; [intros [N _]; contradiction|]. intros _. reflexivity. }
  destruct (dblx A0 (XF k)) as [|x] eqn:EN; cbn [negb orb].
  2:{ split; [intros [_ N]; discriminate|]. intros _. reflexivity. }
  split; [|intros N; exfalso; apply N; split; [discriminate|reflexivity]]. intros _.
  assert (Nk : k <> 0).
  { intros ->. destruct T0 as [|x0]; [discriminate|]. cbn [isox] in ETT. injection ETT as ETT. pose proof HI as [Nu _].
    unfold above in Hcase. destruct (kdec x0 0) as [->|Nx].
    - apply Hcase. transitivity (- ((0 - r0) / u0 * u0)); [toF_eq; field; auto|]. rewrite <- ETT. rng.
    - destruct Hcase as (E1 & E2 & _). apply Nx. transitivity ((x0 - r0) / u0 * u0 + r0); [toF_eq; field; auto|]. rewrite <- ETT, E1. rng. }
  assert (HG : exists A1 c1 R1 Q1, (if Nat.odd (e2 P) then
      let S := xDBLe O K0 ap0 cc0 (e2 P - 1) in
      let '(A24plus, C24) := get_2_isog O S in
      (A24plus, C24, eval_2_isog O K0 S, omap O (fun q => eval_2_isog O q S) Q0)
      else (ap0, cc0, K0, Q0)) = (fst c1, snd c1, R1, Q1) /\ crel4 c1 A1 /\
      exists q1 r1, ord4 (e2 P / 2) A1 q1 /\ repp R1 q1 /\ orelp Q1 r1 /\ (Q1 = None <-> Q0 = None) /\
      chain2 (e2 P) A0 q0 rr = chain4 (e2 P / 2) A1 q1 r1).
  { unfold chain2. destruct (Nat.odd (e2 P)) eqn:Eo.
    - assert (Hk2 : ker2 A0 k) by (split; auto). set (S := xDBLe O K0 ap0 cc0 (e2 P - 1)) in *.
      pose proof (get2_rep F unit sqrt lt enc dec rnd k S HT) as [G1 G2]. cbv zeta. destruct (get_2_isog O S) as [a c]. cbn [fst snd] in G1, G2.
      exists (A2 k), (a, c), (eval_2_isog O K0 S), (omap O (fun q => eval_2_isog O q S) Q0). split; [reflexivity|].
      split; [split; [exact (cod2 F two A0 HA0 k Hk2)|split; auto]|].
      apply Nat.odd_spec in Eo as [n En]. assert (E2 : (e2 P / 2 = n)%nat) by (rewrite En; symmetry; apply (Nat.div_unique _ 2 n 1); lia).
      exists (phi2x k q0), (phi2x k rr). split; [|split; [|split; [|split]]].
      + rewrite E2. apply (next2 A0 n q0 k HA0); auto; [lia|]. rewrite <- ET. f_equal. lia.
      + apply (ev2_rep F unit sqrt lt enc dec rnd two A0 HA0 k Hk2); auto.
      + apply (orel_map _ Q0 rr); auto. intros S0 HS0. apply (ev2_rep F unit sqrt lt enc dec rnd two A0 HA0 k Hk2); auto.
      + apply omap_none.
      + rewrite ET. reflexivity.
    - exists A0, (ap0, cc0), K0, Q0. split; [reflexivity|]. split; [exact Hc0|]. exists q0, rr. split; [|split; [auto|split; [auto|split; [tauto|reflexivity]]]].
      exists k. split; [auto|]. split; [|exact EN]. rewrite <- ET. f_equal.
      assert (Ee : Nat.even (e2 P) = true) by (rewrite <- Nat.negb_odd, Eo; reflexivity). apply Nat.even_spec in Ee as [n En].
      assert (E2 : (e2 P / 2 = n)%nat) by (rewrite En; symmetry; apply (Nat.div_unique _ 2 n 0); lia). lia. }
  destruct HG as (A1 & c1 & R1 & Q1 & EG & Hc1 & q1 & r1 & Ho1 & HR1 & HQ1 & HN1 & Ech). cbv zeta in EG. cbv zeta. rewrite EG. clear EG.
  replace (fst c1, snd c1) with c1 by (destruct c1; reflexivity). rewrite <- Hma in Ho1, Ech.
  destruct (traverse4 F unit sqrt lt enc dec rnd two (max_alice P) (max_int_alice P) c1 A1 R1 Q1 r1 q1 (strat_alice P) Hst Hc1 Ho1 HR1 HQ1)
    as (c' & R' & Q' & A2' & k1 & ks & E1 & Hc' & Hk1 & HR' & HQ' & HW & _ & _ & HM1 & HM2).
  rewrite E1. cbn [bind]. destruct Hk1 as (m & Nm & K1 & K2). pose proof Hc' as (HA2 & _).
  pose proof (get4_rep F unit sqrt lt enc dec rnd two k1 R' HR') as [G1 G2].
  pose proof (fun S q => ev4_rep F unit sqrt lt enc dec rnd two A2' HA2 k1 m Nm K1 K2 R' S q HR') as Hev.
  pose proof (cod4 F two A2' HA2 k1 m Nm K1 K2) as HA4.
  destruct (get_4_isog O R') as [[a c] coeff] eqn:EGG. cbn [fst snd] in *.
  assert (Hc4 : crel4 (a, c) (A4 k1)) by (split; [auto|split; auto]). destruct (back4 _ _ Hc4) as [D1 D2]. cbn [fst snd] in D1, D2.
  exists (AC24_to_AC O a c), (omap O (eval_4_isog O coeff) Q'), (A4 k1), (phi4x k1 (image (xl F) F phi4x ks r1)).
  assert (EF : chain2 (e2 P) A0 q0 rr = Some (A4 k1, phi4x k1 (image (xl F) F phi4x ks r1))).
  { rewrite Ech, (walk_chain4 F _ _ _ _ _ r1 HW), image_snoc. reflexivity. }
  split; [reflexivity|]. split.
  { exists A0, r0, u0. split; [exact HI|].
    split; [change (Nat.iter (e2 P - 1) (dblx A0) q0 <> XF 0); rewrite ET; intros D; injection D; exact Nk|]. split.
    - fold T0. intros NT. unfold above in Hcase. destruct T0 as [|x0]; [tauto|]. destruct (kdec x0 0) as [E0|_]; [exfalso; apply NT; now rewrite E0|tauto].
    - exact EF. }
  split; [auto|]. split; [auto|]. split; [auto|]. split; [|split].
  - revert HQ'. apply orel_map. intros S HS0. apply Hev. exact HS0.
  - rewrite omap_none. rewrite <- HQN, <- HN1. split; [|auto]. intros ->. destruct Q1; auto. exfalso. apply HM2; [discriminate|auto].
  - unfold quot2. fold T0. rewrite HO. exact EF.
Qed.
End A.
End XG.
