(** Unpack_Chain_A and Unpack_Chain_B over a field. *)
From Coq Require Import Field.
From Verif Require Import Base Out Params Fp Poik Hashing Codec Ops Ec Models Proto Fld FieldOps CurveSpec IsogSpec ModelSpec XSpec WalkSpec FldCurve GroupP MultP IsoP FldIsog FldModels
  XLine XIso Strategy XChain CheckP XIsog WalkP.
Set Bullet Behavior "Strict Subproofs".

Section CP.
Variable F : fld.
Variables (unit : F) (sqrt : F -> F) (lt : F -> F -> bool) (enc : F -> list Z) (dec : list Z -> F) (rnd : tape -> out (F * tape)).
Local Notation O := (fld_ops F unit sqrt lt enc dec rnd).
Hypothesis two : (kadd k1 k1 : F) <> k0.
Hypothesis sqrt_ok : forall x z : F, x = kmul z z -> kmul (sqrt x) (sqrt x) = x.
Hypothesis lt_irr : forall x, lt x x = false.
Hypothesis lt_trans : forall x y z, lt x y = true -> lt y z = true -> lt x z = true.
Hypothesis lt_total : forall x y, lt x y = false -> lt y x = false -> x = y.
Local Open Scope fld_scope.
Definition kth11 := kth F.
Add Field KF11 : kth11.
Ltac toF_eq := match goal with |- ?a = ?b => change (@eq (K F) a b) end.
Ltac rng := toF_eq; ring.
Notation repp := (repp F unit sqrt lt enc dec rnd).
Notation orelp := (orel O (xl F) repp).
Notation other := (other_model F unit sqrt lt enc dec rnd).

(** The model chosen by canonical_model. *)
Definition canon_model (A : F) : F * F * F :=
  match canonical_model O (@mkCurve O A 1) with
  | Ok i => (iB i, ir i, iu2 i)
  | _ => (A, 0, 1)
  end.
Notation canon := canon_model.
Lemma canonical_coef (E : curve O) (A : F) : cC E <> 0 -> cA E = A * cC E -> canonical_model O E = canonical_model O (@mkCurve O A 1).
Proof. intros HC HE. unfold canonical_model. now rewrite (all_models_coef F unit sqrt lt enc dec rnd E A HC HE). Qed.
Lemma div1 (A : F) : A / 1 = A. Proof. field. apply (one_nz F). Qed.
Lemma canon_ok (A : F) : full4 A -> exists m, canonical_model O (@mkCurve O A 1) = Ok m /\ canon A = (iB m, ir m, iu2 m) /\ iso_to A (iB m) (ir m) (iu2 m) /\ least_model F lt A (iB m).
Proof.
  intros H4. destruct (canonical_model_ok F unit sqrt lt enc dec rnd two sqrt_ok lt_irr lt_trans lt_total (@mkCurve O A 1)) as (m & E & HI & HL).
  - cbn. apply (one_nz F).
  - cbn [cA cC]. rewrite div1. exact H4.
  - cbn [cA cC] in HI, HL. rewrite div1 in HI, HL. exists m. split; [exact E|]. split; [unfold canon; rewrite E; reflexivity|]. auto.
Qed.
Lemma other_ok (A : F) : full4 A -> (let '(B, r, u) := other A in iso_to A B r u) /\ snd (fst (other A)) <> 0.
Proof.
  intros H4. destruct (all_models_ok F unit sqrt lt enc dec rnd two sqrt_ok (@mkCurve O A 1)) as (ms & Em & _ & Hall & _ & rest & Eq & Hr).
  - cbn. apply (one_nz F).
  - cbn [cA cC]. rewrite div1. exact H4.
  - cbn [cA cC] in *. rewrite div1 in *. unfold other_model. rewrite Em, Eq. destruct rest as [|o rest]; [contradiction|].
    rewrite Eq, Forall_forall in Hall. split; [|cbn; apply Hr]. apply Hall. cbn. auto.
Qed.
Variable SS : F -> Prop.
Hypothesis HSS : isog_class SS.
Lemma other_isos : isos SS other. Proof. intros A HA. apply other_ok. now apply (ss_full4 HSS). Qed.
Lemma other_r (A : F) : SS A -> snd (fst (other A)) <> 0. Proof. intros HA. apply other_ok. now apply (ss_full4 HSS). Qed.
Lemma canon_isos : isos SS canon.
Proof. intros A HA. destruct (canon_ok A (ss_full4 HSS A HA)) as (m & _ & E & HI & _). rewrite E. exact HI. Qed.
Lemma to_canonical_ok (E : curve O) (A B r u : F) back b : cC E <> 0 -> cA E = A * cC E -> SS A -> canon A = (B, r, u) -> repp back b ->
  exists back', to_canonical O E back = Ok (@mkCurve O B 1, back') /\ repp back' (isox r u b) /\ SS B /\ iso_to A B r u.
Proof.
  intros HC HE HA EM Hb. destruct (canon_ok A (ss_full4 HSS A HA)) as (m & E1 & E2 & HI & _). rewrite EM in E2. injection E2 as -> -> ->.
  exists (eval_iso O m back). unfold to_canonical. rewrite (canonical_coef E A HC HE), E1. cbn [bind]. split; [reflexivity|]. split; [|split; [|exact HI]].
  - exact (evaliso_rep F unit sqrt lt enc dec rnd A (iB m) (ir m) (iu2 m) HI m back b eq_refl eq_refl Hb).
  - exact (ss_iso HSS A _ _ _ HA HI).
Qed.

Variable K : pok.
Notation P := (fpar K).
Hypothesis HS : strat_good P.
Definition xpt (x : list Z) : xl F := XF (dec x).
Lemma unpack_rep x : repp (unpack_point O x) (xpt x).
Proof. split; cbn; [apply (one_nz F)|ring]. Qed.
Notation walk2 := (walk2 canon other (e2 P)).
(** The rest of a walk: from the curve A reached last, before the change to the canonical model. *)
Definition rest2 (A : F) (qs : list (xl F)) (A'' : F) : Prop :=
  match qs with [] => A'' = A | _ => let '(B, r, u) := canon A in walk2 B (Some (isox r u (XF 0))) qs A'' end.
Lemma walk2_rest (A : F) d q qs A'' : walk2 A d (q :: qs) A'' <-> exists A', step2 other (e2 P) A d q A' /\ rest2 A' qs A''.
Proof.
  split.
  - intros H. inversion H as [? ? ? ? Hs|? ? ? A' B r u q' qs' ? Hs Hc Hw]; subst.
    + eexists. split; [eassumption|]. reflexivity.
    + eexists. split; [eassumption|]. cbn [rest2]. rewrite Hc. assumption.
  - intros (A' & H1 & H2). destruct qs as [|q' qs].
    + cbn in H2. subst. now constructor.
    + cbn [rest2] in H2. destruct (canon A') as [[B r] u] eqn:E. econstructor; eauto.
Qed.
Lemma chain_A_loop_ok xs : forall (E : curve O) (A : F) back b, cC E <> 0 -> cA E = A * cC E -> SS A -> repp back b -> b = XInf \/ b = XF 0 ->
  exists o, chain_A_loop K O E back xs = Ok o /\
  match o with
  | None => forall A'', ~ rest2 A (map xpt xs) A''
  | Some (E', back') => exists A' b', cC E' <> 0 /\ cA E' = A' * cC E' /\ SS A' /\ repp back' b' /\
      (b' = XInf /\ (b = XInf \/ forall A'', ~ rest2 A (map xpt xs) A'') \/ b' = XF 0 /\ b = XF 0 /\ rest2 A (map xpt xs) A')
  end.
Proof.
  pose proof HS as (He2 & _). induction xs as [|x xs IH]; intros E A back b HC HE HA Hb Db.
  - exists (Some (E, back)). split; [reflexivity|]. exists A, b. repeat (split; [assumption|]). cbn. destruct Db; auto.
  - cbn [chain_A_loop map]. destruct (canon A) as [[B r] u] eqn:EM.
    destruct (to_canonical_ok E A B r u back b HC HE HA EM Hb) as (back1 & E1 & Hb1 & HB & HI). rewrite E1. cbn [bind].
    assert (C1 : cC (@mkCurve O B 1) <> 0) by (cbn; apply (one_nz F)).
    assert (A1 : cA (@mkCurve O B 1) = B * cC (@mkCurve O B 1)) by (cbn; exact (CheckP.one_r F B)).
    destruct (Isogeny_A_ok F unit sqrt lt enc dec rnd two sqrt_ok P HS (@mkCurve O B 1) B C1 A1 (ss_full4 HSS B HB) (unpack_point O x) (Some back1) (xpt x) (isox r u b)
      (unpack_rep x) Hb1) as [Y N].
    assert (Dec : xord2 B (e2 P) (xpt x) \/ ~ xord2 B (e2 P) (xpt x)).
    { assert (Hge : (1 <= e2 P)%nat) by lia. rewrite (xord2_two F unit sqrt lt enc dec rnd B _ (xpt x) Hge).
      destruct (Nat.iter (e2 P - 1) (dblx B) (xpt x)) as [|y]; [right; intros [D _]; auto|].
      destruct (dblx B (XF y)); [left; split; [discriminate|auto]|right; intros [_ D]; discriminate]. }
    destruct Dec as [Ho|No].
    2:{ rewrite (N No). cbn [bind]. exists None. split; [reflexivity|]. intros A'' HW. cbn [rest2] in HW. rewrite EM in HW. apply walk2_rest in HW as (A' & (HW & _) & _). contradiction. }
    destruct (Y Ho) as (E' & Q' & A' & r' & E2 & _ & _ & HC' & HE' & HQ' & HN & HQuot). rewrite E2. cbn [bind].
    destruct Q' as [back2|]; [|destruct HN as [HN _]; discriminate (HN eq_refl)]. cbn in HQ'.
    assert (HA' : SS A') by (exact (quot2_ss F two SS HSS other other_isos other_r (e2 P) He2 B (xpt x) _ A' r' HB Ho HQuot)).
    assert (H2 : dblx B (isox r u b) = XInf).
    { destruct Db as [->| ->]; [reflexivity|]. rewrite <- (isox_dblx F two A B r u HI (ss_ns F SS HSS A HA) (ss_ns F SS HSS B HB)). now rewrite zero_two. }
    destruct (dual2 F two SS HSS other other_isos other_r (e2 P) He2 B (xpt x) (isox r u b) A' r' HB Ho H2 HQuot) as [D1 D2].
    assert (XD : isox r u b = XInf \/ isox r u b = Nat.iter (e2 P - 1) (dblx B) (xpt x) \/ (isox r u b <> XInf /\ isox r u b <> Nat.iter (e2 P - 1) (dblx B) (xpt x))).
    { destruct (isox r u b) as [|y]; [auto|]. right. destruct (Nat.iter (e2 P - 1) (dblx B) (xpt x)) as [|z]; [right; split; discriminate|].
      destruct (kdec y z) as [->|]; [auto|right; split; [discriminate|congruence]]. }
    assert (Dr : r' = XInf \/ r' = XF 0) by (destruct XD as [XD|[XD|[X1 X2]]]; auto).
    destruct (IH E' A' back2 r' HC' HE' HA' HQ' Dr) as (o & E3 & Ho'). exists o. split; [exact E3|].
    destruct (quot2_cod F other (e2 P) B (xpt x) _ XInf A' r' HQuot) as (s' & Hs'). pose proof (quot2_inf F other (e2 P) B (xpt x) _ _ Hs') as ->.
    assert (HW : forall A'', rest2 A (xpt x :: map xpt xs) A'' <-> (isox r u (XF 0) <> Nat.iter (e2 P - 1) (dblx B) (xpt x) /\ rest2 A' (map xpt xs) A'')).
    { intros A''. cbn [rest2]. rewrite EM, walk2_rest. split.
      - intros (A2 & (_ & H1 & H3) & H4). rewrite Hs' in H3. injection H3 as <-. split; [|auto]. intros D. symmetry in D. revert D. apply H1. reflexivity.
      - intros [H1 H3]. exists A'. split; [|exact H3]. split; [auto|]. split; [|exact Hs']. intros y D D'. apply H1. congruence. }
    destruct o as [[E4 back4]|].
    + destruct Ho' as (A4 & b4 & G1 & G2 & G3 & G4 & G5). exists A4, b4. repeat (split; [assumption|]).
      destruct G5 as [[G5 G6]|(G5 & G6 & G7)].
      * left. split; [auto|]. destruct Db as [->| ->]; [auto|]. right. intros A'' H. apply HW in H as [H H5]. destruct G6 as [G6|G6]; [|exact (G6 _ H5)].
        assert (r' = XF 0) by (apply D2; auto; discriminate). congruence.
      * right. split; [auto|]. destruct Db as [->| ->]; [rewrite D1 in G6 by auto; discriminate|]. split; [auto|]. apply HW. split; [|auto].
        intros D. rewrite D1 in G6 by auto. discriminate.
    + intros A'' H. apply HW in H as [_ H]. exact (Ho' _ H).
Qed.
Lemma xeq (a b : xl F) : a = b \/ a <> b.
Proof. destruct a as [|x], b as [|y]; auto; [right; discriminate|right; discriminate|]. destruct (kdec x y) as [->|]; [auto|right; congruence]. Qed.
Lemma Unpack_Chain_A_ok junk a xs tp o tp' : SS (dec a) -> Unpack_Chain_A K O junk a xs tp = Ok (o, tp') ->
  match o with
  | Some E => exists A', walk2 (dec a) None (map xpt xs) A' /\ SS A' /\ cC E <> 0 /\ cA E = A' * cC E
  | None => forall A', ~ walk2 (dec a) None (map xpt xs) A'
  end.
Proof.
  intros HA. pose proof HS as (He2 & _). unfold Unpack_Chain_A. destruct (check_packed K O junk a tp) as [[ok t1]| | | |]; cbn [bind]; try discriminate.
  destruct xs as [|x xs]; [discriminate|]. cbn [map].
  assert (C1 : cC (@mkCurve O (dec a) 1) <> 0) by (cbn; apply (one_nz F)).
  assert (A1 : cA (@mkCurve O (dec a) 1) = dec a * cC (@mkCurve O (dec a) 1)) by (cbn; exact (CheckP.one_r F (dec a))).
  destruct (Isogeny_A_ok F unit sqrt lt enc dec rnd two sqrt_ok P HS (@mkCurve O (dec a) 1) (dec a) C1 A1 (ss_full4 HSS _ HA) (unpack_point O x) None (xpt x) XInf
      (unpack_rep x) I) as [Y N]. change (unpack_curve O a) with (@mkCurve O (dec a) 1).
  assert (Dec : xord2 (dec a) (e2 P) (xpt x) \/ ~ xord2 (dec a) (e2 P) (xpt x)).
  { assert (Hge : (1 <= e2 P)%nat) by lia. rewrite (xord2_two F unit sqrt lt enc dec rnd (dec a) _ (xpt x) Hge).
    destruct (xeq (Nat.iter (e2 P - 1) (dblx (dec a)) (xpt x)) XInf), (xeq (dblx (dec a) (Nat.iter (e2 P - 1) (dblx (dec a)) (xpt x))) XInf); tauto. }
  destruct Dec as [Ho|No].
  2:{ rewrite (N No). cbn [bind]. intros E. injection E as <- <-. intros A' H. apply walk2_rest in H as (A2 & (H & _) & _). contradiction. }
  destruct (Y Ho) as (E' & Q' & A' & r' & E2 & _ & _ & HC' & HE' & _ & _ & HQuot). rewrite E2. cbn [bind].
  assert (HA' : SS A') by (exact (quot2_ss F two SS HSS other other_isos other_r (e2 P) He2 (dec a) (xpt x) _ A' r' HA Ho HQuot)).
  assert (Hb : repp (back_A O) (XF 0)) by (split; cbn; [apply (one_nz F)|ring]).
  destruct (chain_A_loop_ok xs E' A' (back_A O) (XF 0) HC' HE' HA' Hb (or_intror eq_refl)) as (o' & E3 & H3). rewrite E3. cbn [bind].
  pose proof (quot2_inf F other (e2 P) (dec a) (xpt x) _ _ HQuot) as ->.
  assert (HW : forall A'', walk2 (dec a) None (xpt x :: map xpt xs) A'' <-> rest2 A' (map xpt xs) A'').
  { intros A''. rewrite walk2_rest. split.
    - intros (A2 & (_ & _ & H4) & H5). rewrite HQuot in H4. injection H4 as <-. exact H5.
    - intros H5. exists A'. split; [|exact H5]. split; [auto|]. split; [discriminate|exact HQuot]. }
  destruct o' as [[E4 back4]|].
  - destruct H3 as (A4 & b4 & G1 & G2 & G3 & G4 & G5). rewrite (repZ F unit sqrt lt enc dec rnd back4 b4 G4). destruct G5 as [[-> G6]|(-> & _ & G7)]; intros E; injection E as <- <-.
    + destruct G6 as [D|G6]; [discriminate|]. intros A'' H. apply HW in H. exact (G6 _ H).
    + exists A4. split; [now apply HW|auto].
  - intros E. injection E as <- <-. intros A'' H. apply HW in H. exact (H3 _ H).
Qed.
Lemma Unpack_Chain_A_total junk a xs tp ok tp1 : SS (dec a) -> xs <> [] -> check_packed K O junk a tp = Ok (ok, tp1) ->
  exists o, Unpack_Chain_A K O junk a xs tp = Ok (o, tp1).
Proof.
  intros HA Nx Ec. pose proof HS as (He2 & _). unfold Unpack_Chain_A. rewrite Ec. cbn [bind]. destruct xs as [|x xs]; [contradiction|].
  assert (C1 : cC (@mkCurve O (dec a) 1) <> 0) by (cbn; apply (one_nz F)).
  assert (A1 : cA (@mkCurve O (dec a) 1) = dec a * cC (@mkCurve O (dec a) 1)) by (cbn; exact (CheckP.one_r F (dec a))).
  destruct (Isogeny_A_ok F unit sqrt lt enc dec rnd two sqrt_ok P HS (@mkCurve O (dec a) 1) (dec a) C1 A1 (ss_full4 HSS _ HA) (unpack_point O x) None (xpt x) XInf
      (unpack_rep x) I) as [Y N]. change (unpack_curve O a) with (@mkCurve O (dec a) 1).
  assert (Dec : xord2 (dec a) (e2 P) (xpt x) \/ ~ xord2 (dec a) (e2 P) (xpt x)).
  { assert (Hge : (1 <= e2 P)%nat) by lia. rewrite (xord2_two F unit sqrt lt enc dec rnd (dec a) _ (xpt x) Hge).
    destruct (xeq (Nat.iter (e2 P - 1) (dblx (dec a)) (xpt x)) XInf), (xeq (dblx (dec a) (Nat.iter (e2 P - 1) (dblx (dec a)) (xpt x))) XInf); tauto. }
  destruct Dec as [Ho|No]; [|rewrite (N No); cbn [bind]; eauto].
  destruct (Y Ho) as (E' & Q' & A' & r' & E2 & _ & _ & HC' & HE' & _ & _ & HQuot). rewrite E2. cbn [bind].
  assert (HA' : SS A') by (exact (quot2_ss F two SS HSS other other_isos other_r (e2 P) He2 (dec a) (xpt x) _ A' r' HA Ho HQuot)).
  assert (Hb : repp (back_A O) (XF 0)) by (split; cbn; [apply (one_nz F)|ring]).
  destruct (chain_A_loop_ok xs E' A' (back_A O) (XF 0) HC' HE' HA' Hb (or_intror eq_refl)) as (o' & E3 & _). rewrite E3. cbn [bind].
  destruct o' as [[E4 b4]|]; eauto.
Qed.

(** ** Degree 3 *)
Notation walk3 := (walk3 canon (e3 P)).
Definition rest3 (A : F) (d : xl F) (qs : list (xl F)) (A'' : F) : Prop :=
  match qs with [] => A'' = A | _ => let '(B, r, u) := canon A in walk3 B (Some (isox r u d)) qs A'' end.
Lemma walk3_rest (A : F) d q qs A'' : walk3 A d (q :: qs) A'' <-> exists A' d', step3 (e3 P) A d q A' d' /\ rest3 A' d' qs A''.
Proof.
  split.
  - intros H. inversion H as [? ? ? ? ? Hs|? ? ? A' d' B r u q' qs' ? Hs Hc Hw]; subst.
    + do 2 eexists. split; [eassumption|]. reflexivity.
    + do 2 eexists. split; [eassumption|]. cbn [rest3]. rewrite Hc. assumption.
  - intros (A' & d' & H1 & H2). destruct qs as [|q' qs].
    + cbn in H2. subst. econstructor; eauto.
    + cbn [rest3] in H2. destruct (canon A') as [[B r] u] eqn:E. econstructor; eauto.
Qed.
Lemma xord3_dec (A : F) q : xord3 A (e3 P) q \/ ~ xord3 A (e3 P) q.
Proof.
  pose proof HS as (_ & He3 & _). rewrite (xord3_two F unit sqrt lt enc dec rnd A _ q He3).
  destruct (xeq (Nat.iter (e3 P - 1) (tplx A) q) XInf), (xeq (tplx A (Nat.iter (e3 P - 1) (tplx A) q)) XInf); tauto.
Qed.
Lemma xord3_ord (A : F) q : xord3 A (e3 P) q -> ord3 F (S (e3 P - 1)) A q.
Proof.
  pose proof HS as (_ & He3 & _). intros H. apply (xord3_two F unit sqrt lt enc dec rnd A _ q He3) in H as [H1 H2].
  replace (S (e3 P - 1)) with (e3 P) by lia. destruct (Nat.iter (e3 P - 1) (tplx A) q) as [|k] eqn:E; [contradiction|]. exists k. auto.
Qed.
(** One isogeny of degree 3^e3, with everything the loop needs. *)
Lemma Isogeny_B_step (E : curve O) (A : F) x Q r wb tp : cC E <> 0 -> cA E = A * cC E -> SS A -> orelp Q r ->
  (~ xord3 A (e3 P) (xpt x) /\ Isogeny_B O P E (unpack_point O x) Q wb tp = Ok (None, tp)) \/
  (xord3 A (e3 P) (xpt x) /\ exists A' r' Q' (E' : curve O) A1 R1 k1, chain3 (e3 P) A (xpt x) r = Some (A', r') /\ SS A' /\ cC E' <> 0 /\ cA E' = A' * cC E' /\
     orelp Q' r' /\ (Q' = None <-> Q = None) /\ chain3 (e3 P) A (xpt x) XInf = Some (A', XInf) /\
     chain3 (e3 P - 1) A (tplx A (xpt x)) (xpt x) = Some (A1, XF k1) /\ A1 * A1 <> 4 /\ ker3 A1 k1 /\ repp R1 (XF k1) /\
     Isogeny_B O P E (unpack_point O x) Q wb tp =
      (do (back, tp) <- (if wb then do (b, tp) <- back_B_loop O P (S (length tp)) A1 R1 tp;; Ok (Some b, tp) else Ok (None, tp));;
       Ok (Some (E', Q', omap O (eval_3_isog O (snd (get_3_isog O R1))) back), tp))).
Proof.
  intros HC HE HA HQ. pose proof (ss_ns F SS HSS A HA) as HA4. pose proof HS as (_ & He3 & _).
  destruct (xord3_dec A (xpt x)) as [Ho|No].
  2:{ left. split; [auto|]. exact (Isogeny_B_no F unit sqrt lt enc dec rnd two P HS E A HC HE HA4 (unpack_point O x) Q (xpt x) (unpack_rep x) wb tp No). }
  right. split; [auto|].
  destruct (Isogeny_B_yes F unit sqrt lt enc dec rnd two P HS E A HC HE HA4 (unpack_point O x) Q (xpt x) r (unpack_rep x) HQ wb tp Ho)
    as (A1 & R1 & k1 & Q' & E' & EI & HA1 & Hk1 & HR1 & HC' & HE' & (r1 & Hch & HQ') & HN & Hlast).
  destruct (chain3_cod F (e3 P) A (xpt x) r XInf _ _ Hch) as (s' & Hs'). pose proof (chain3_inf F _ _ _ _ _ Hs') as ->.
  exists (A3 A1 k1), (phi3x k1 r1), Q', E', A1, R1, k1. split; [exact Hch|]. split.
  { refine (chain3_ss F two SS HSS (e3 P) A (xpt x) r _ _ HA _ Hch). right. replace (e3 P) with (S (e3 P - 1)) by lia. now apply xord3_ord. }
  repeat (split; [assumption|]). exact EI.
Qed.
Lemma chain_B_loop_ok xs tp : forall (E : curve O) (A : F) back b d, cC E <> 0 -> cA E = A * cC E -> SS A -> repp back b ->
  b = XInf \/ (b = d /\ tplx A d = XInf /\ d <> XInf) ->
  exists o, chain_B_loop K O E back xs tp = Ok (o, tp) /\
  match o with
  | None => forall A'', ~ rest3 A d (map xpt xs) A''
  | Some (E', back') => exists A' b', cC E' <> 0 /\ cA E' = A' * cC E' /\ SS A' /\ repp back' b' /\
      (b' = XInf /\ (b = XInf \/ forall A'', ~ rest3 A d (map xpt xs) A'') \/ b' <> XInf /\ b = d /\ rest3 A d (map xpt xs) A')
  end.
Proof.
  pose proof HS as (_ & He3 & _). induction xs as [|x xs IH]; intros E A back b d HC HE HA Hb Db.
  - exists (Some (E, back)). split; [reflexivity|]. exists A, b. repeat (split; [assumption|]). cbn. destruct Db as [->|(-> & _ & Nd)]; auto.
  - cbn [chain_B_loop map]. destruct (canon A) as [[B r] u] eqn:EM.
    destruct (to_canonical_ok E A B r u back b HC HE HA EM Hb) as (back1 & E1 & Hb1 & HB & HI). rewrite E1. cbn [bind].
    assert (C1 : cC (@mkCurve O B 1) <> 0) by (cbn; apply (one_nz F)).
    assert (A1 : cA (@mkCurve O B 1) = B * cC (@mkCurve O B 1)) by (cbn; exact (CheckP.one_r F B)).
    destruct (Isogeny_B_step (@mkCurve O B 1) B x (Some back1) (isox r u b) false tp C1 A1 HB Hb1)
      as [[No EN]|(Ho & A' & r' & Q' & E' & A1' & R1 & k1 & Hch & HA' & HC' & HE' & HQ' & HN & Hinf & Hlast & HA1' & Hk1 & HR1 & EI)].
    { rewrite EN. cbn [bind]. exists None. split; [reflexivity|]. intros A'' HW. cbn [rest3] in HW. rewrite EM in HW. apply walk3_rest in HW as (A' & d' & (HW & _) & _). contradiction. }
    rewrite EI. cbn [bind omap]. clear EI.
    destruct Q' as [back2|]; [|destruct HN as [HN _]; discriminate (HN eq_refl)]. cbn in HQ'.
    set (d' := XF (- (1) / (3 * k1)) : xl F).
    assert (H3 : tplx B (isox r u b) = XInf).
    { destruct Db as [->|(-> & Db & _)]; [reflexivity|]. rewrite <- (isox_tplx F unit sqrt lt enc dec rnd two A B r u HI (ss_ns F SS HSS A HA) (ss_ns F SS HSS B HB)). now rewrite Db. }
    pose proof (xord3_ord B (xpt x) Ho) as Ho3. assert (Hch' : chain3 (S (e3 P - 1)) B (xpt x) (isox r u b) = Some (A', r')) by (replace (S (e3 P - 1)) with (e3 P) by lia; exact Hch).
    destruct (dual3 F two (e3 P - 1) B (xpt x) (isox r u b) A' r' (ss_ns F SS HSS B HB) Ho3 H3 Hch') as [D1 D2].
    assert (D2' : isox r u b <> XInf -> isox r u b <> Nat.iter (e3 P - 1) (tplx B) (xpt x) -> r' = d').
    { intros N1 N2. destruct (D2 N1 N2) as (A2 & k2 & E2 & ->). rewrite Hlast in E2. injection E2 as _ <-. reflexivity. }
    assert (Dr : r' = XInf \/ (r' = d' /\ tplx A' d' = XInf /\ d' <> XInf)).
    { destruct (xeq (isox r u b) XInf) as [X1|X1]; [auto|]. destruct (xeq (isox r u b) (Nat.iter (e3 P - 1) (tplx B) (xpt x))) as [X2|X2]; [auto|].
      right. split; [auto|]. split; [|discriminate]. rewrite <- (D2' X1 X2). exact (chain3_tpl F two (S (e3 P - 1)) B (xpt x) (isox r u b) A' r' (ss_ns F SS HSS B HB) (or_intror Ho3) H3 Hch'). }
    destruct (IH E' A' back2 r' d' HC' HE' HA' HQ' Dr) as (o & E3 & Ho'). exists o. split; [exact E3|].
    assert (HW : forall A'', rest3 A d (xpt x :: map xpt xs) A'' <-> (isox r u d <> Nat.iter (e3 P - 1) (tplx B) (xpt x) /\ rest3 A' d' (map xpt xs) A'')).
    { intros A''. cbn [rest3]. rewrite EM, walk3_rest. split.
      - intros (A2 & d2 & (_ & H1 & H4 & A2' & k2 & H5 & ->) & H6). rewrite Hinf in H4. injection H4 as <-. rewrite Hlast in H5. injection H5 as _ <-. split; [|exact H6].
        intros D. symmetry in D. revert D. apply H1. reflexivity.
      - intros [H1 H4]. exists A', d'. split; [|exact H4]. split; [auto|]. split; [intros y D D'; apply H1; congruence|]. split; [exact Hinf|]. exists A1', k1. auto. }
    assert (NX : b <> XInf -> isox r u b <> XInf) by (intros N D; apply N; destruct b; [auto|discriminate]).
    destruct o as [[E4 back4]|].
    + destruct Ho' as (A4 & b4 & G1 & G2 & G3 & G4 & G5). exists A4, b4. repeat (split; [assumption|]).
      destruct G5 as [[G5 G6]|(G5 & G6 & G7)].
      * left. split; [auto|]. destruct (xeq b XInf) as [|Nb]; [auto|]. right. intros A'' H. apply HW in H as [H H5]. destruct G6 as [G6|G6]; [|exact (G6 _ H5)].
        destruct Db as [Db|(Db & _)]; [contradiction|]. subst d. rewrite (D2' (NX Nb) H) in G6. discriminate.
      * right. split; [auto|]. destruct Db as [->|(Db & Dt & Nd)]; [rewrite D1 in G6 by auto; discriminate|]. split; [auto|]. apply HW. split; [|auto].
        subst d. intros D. rewrite D1 in G6 by auto. discriminate.
    + intros A'' H. apply HW in H as [_ H]. exact (Ho' _ H).
Qed.
Lemma Unpack_Chain_B_ok junk a xs tp o tp' : SS (dec a) -> Unpack_Chain_B K O junk a xs tp = Ok (o, tp') ->
  match o with
  | Some E => exists A', walk3 (dec a) None (map xpt xs) A' /\ SS A' /\ cC E <> 0 /\ cA E = A' * cC E
  | None => forall A', ~ walk3 (dec a) None (map xpt xs) A'
  end.
Proof.
  intros HA. pose proof HS as (_ & He3 & _). unfold Unpack_Chain_B. destruct (check_packed K O junk a tp) as [[ok t1]| | | |]; cbn [bind]; try discriminate.
  destruct xs as [|x xs].
  { change (o_zero O) with (0 : F). rewrite (is0_0 F unit sqrt lt enc dec rnd). intros E. injection E as <- <-. intros A' H. inversion H. }
  cbn [map]. assert (C1 : cC (@mkCurve O (dec a) 1) <> 0) by (cbn; apply (one_nz F)).
  assert (A1 : cA (@mkCurve O (dec a) 1) = dec a * cC (@mkCurve O (dec a) 1)) by (cbn; exact (CheckP.one_r F (dec a))).
  change (unpack_curve O a) with (@mkCurve O (dec a) 1).
  destruct (Isogeny_B_step (@mkCurve O (dec a) 1) (dec a) x None XInf true t1 C1 A1 HA I)
      as [[No EN]|(Ho & A' & r' & Q' & E' & A1' & R1 & k1 & Hch & HA' & HC' & HE' & HQ' & HN & Hinf & Hlast & HA1' & Hk1 & HR1 & EI)].
  { rewrite EN. cbn [bind]. intros E. injection E as <- <-. intros A' H. apply walk3_rest in H as (A2 & d2 & (H & _) & _). contradiction. }
  rewrite EI. clear EI. destruct (back_B_loop O P (S (length t1)) A1' R1 t1) as [[b t2]| | | |] eqn:EB; cbn [bind omap]; try discriminate.
  apply (back_B_ok F unit sqrt lt enc dec rnd two sqrt_ok P A1' R1 k1 HA1' HR1) in EB as (y & Ny & Hy & Hb).
  destruct (two_ker3 F two A1' k1 y Hk1 Hy Ny) as (N3 & Nk & Ey).
  set (d' := XF (- (1) / (3 * k1)) : xl F) in *.
  assert (Hb' : repp (eval_3_isog O (snd (get_3_isog O R1)) b) d').
  { rewrite <- Ey. exact (ev3_rep F unit sqrt lt enc dec rnd two A1' HA1' k1 Hk1 R1 b (XF y) HR1 Hb). }
  assert (EA' : A' = A3 A1' k1).
  { apply (chain3_last F two (e3 P - 1) (dec a) (xpt x) XInf A1' k1 A' XInf (ss_ns F SS HSS _ HA) (xord3_ord _ _ Ho) Hlast).
    replace (S (e3 P - 1)) with (e3 P) by lia. exact Hinf. }
  assert (Dt : tplx A' d' = XInf).
  { rewrite EA', <- Ey, <- (phi3_tplx F unit sqrt lt enc dec rnd two A1' HA1' k1 Hk1). unfold ker3 in Hy. rewrite Hy. reflexivity. }
  destruct (chain_B_loop_ok xs t2 E' A' _ d' d' HC' HE' HA' Hb') as (o' & E3 & H3); [right; split; [auto|]; split; [auto|discriminate]|].
  rewrite E3. cbn [bind].
  assert (HW : forall A'', walk3 (dec a) None (xpt x :: map xpt xs) A'' <-> rest3 A' d' (map xpt xs) A'').
  { intros A''. rewrite walk3_rest. split.
    - intros (A2 & d2 & (_ & _ & H4 & A2' & k2 & H5 & ->) & H6). rewrite Hinf in H4. injection H4 as <-. rewrite Hlast in H5. injection H5 as _ <-. exact H6.
    - intros H5. exists A', d'. split; [|exact H5]. split; [auto|]. split; [discriminate|]. split; [exact Hinf|]. exists A1', k1. auto. }
  destruct o' as [[E4 back4]|].
  - destruct H3 as (A4 & b4 & G1 & G2 & G3 & G4 & G5). rewrite (repZ F unit sqrt lt enc dec rnd back4 b4 G4). destruct G5 as [[-> G6]|(Nb & _ & G7)].
    + intros E; injection E as <- <-. destruct G6 as [D|G6]; [discriminate|]. intros A'' H. apply HW in H. exact (G6 _ H).
    + destruct b4 as [|y4]; [contradiction|]. intros E; injection E as <- <-. exists A4. split; [now apply HW|auto].
  - intros E. injection E as <- <-. intros A'' H. apply HW in H. exact (H3 _ H).
Qed.
End CP.
