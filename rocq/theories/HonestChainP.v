(** The prover over a field: random points, random chains, the square of isogenies. *)
From Coq Require Import Field.
From Verif Require Import Base BaseP Out Params Fp Poik Hashing Codec Ops Ec Models Proto Fld FieldOps CurveSpec IsogSpec ModelSpec XSpec WalkSpec FldCurve GroupP MultP IsoP FldIsog FldModels
  XLine XIso Strategy XChain CheckP XIsog WalkP SquareP KumP GridP BasisP IsoStepP IsoChainP OddP RawP ChainP.
Set Bullet Behavior "Strict Subproofs".

Section HC.
Variable F : fld.
Variables (unit : F) (sqrt : F -> F) (lt : F -> F -> bool) (enc : F -> list Z) (dec : list Z -> F) (rnd : tape -> out (F * tape)).
Local Notation O := (fld_ops F unit sqrt lt enc dec rnd).
Hypothesis two : (kadd k1 k1 : F) <> k0.
Hypothesis three : (kadd k1 (kadd k1 k1) : F) <> k0.
Hypothesis unit_nz : unit <> k0.
Hypothesis sqrt_ok : forall x z : F, x = kmul z z -> kmul (sqrt x) (sqrt x) = x.
Hypothesis lt_irr : forall x, lt x x = false.
Hypothesis lt_trans : forall x y z, lt x y = true -> lt y z = true -> lt x z = true.
Hypothesis lt_total : forall x y, lt x y = false -> lt y x = false -> x = y.
Local Open Scope fld_scope.
Definition kth20 := kth F.
Add Field KF20 : kth20.
Notation repp := (repp F unit sqrt lt enc dec rnd).
Notation orelp := (orel O (xl F) repp).
Notation other := (other_model F unit sqrt lt enc dec rnd).
Notation canon := (canon_model F unit sqrt lt enc dec rnd).
Variable SS : F -> Prop.
Hypothesis HSS : isog_class SS.
Notation ns := (ss_ns F SS HSS).
Variable K : pok.
Notation P := (fpar K).
Hypothesis HS : strat_good P.
Notation Hot := (other_isos F unit sqrt lt enc dec rnd two sqrt_ok SS HSS).
Notation Hor := (other_r F unit sqrt lt enc dec rnd two sqrt_ok SS HSS).
Notation C3 := (C3 F). Notation D3 := (D3 F). Notation ord3 := (ord3 F).
Notation Q2 := (Q2 F other (e2 P)).
Notation raw2 := (raw2 F other (e2 P)). Notation raw3 := (raw3 F (e3 P)).
Definition relC (E : curve O) (A : F) : Prop := cC E <> 0 /\ cA E = A * cC E.
Lemma He2 : (2 <= e2 P)%nat. Proof. destruct HS as (H & _). lia. Qed.
Lemma He3 : (1 <= e3 P)%nat. Proof. destruct HS as (_ & H & _). lia. Qed.


Lemma isoA (E : curve O) (A : F) Kp q Q s E' Q' : relC E A -> SS A -> repp Kp q -> orelp Q s -> Isogeny_A O P E Kp Q = Ok (Some (E', Q')) ->
  xord2 A (e2 P) q /\ exists A1 f, Q2 A q A1 f /\ SS A1 /\ relC E' A1 /\ orelp Q' (f s) /\ (Q' = None <-> Q = None).
Proof.
  intros [HC HE] HA HK HQ EI. pose proof He2 as H2.
  destruct (Isogeny_A_ok F unit sqrt lt enc dec rnd two sqrt_ok P HS E A HC HE (ss_full4 HSS A HA) Kp Q q s HK HQ) as [Y N].
  assert (Ho : xord2 A (e2 P) q).
  { assert (Dec : xord2 A (e2 P) q \/ ~ xord2 A (e2 P) q).
    { assert (Hge : (1 <= e2 P)%nat) by lia. rewrite (xord2_two F unit sqrt lt enc dec rnd A _ q Hge).
      destruct (xeq F (Nat.iter (e2 P - 1) (dblx A) q) XInf), (xeq F (dblx A (Nat.iter (e2 P - 1) (dblx A) q)) XInf); tauto. }
    destruct Dec as [Ho|No]; [auto|]. rewrite (N No) in EI. discriminate. }
  split; [exact Ho|]. destruct (Y Ho) as (E1 & Q1 & A1 & s1 & EY & _ & _ & HC1 & HE1 & HQ1 & HN & Hq). rewrite EY in EI.
  assert (E1 = E') by congruence. assert (Q1 = Q') by congruence. subst E1 Q1. clear EI EY Y N.
  destruct (Q2_ex F two SS HSS other Hot Hor (e2 P) H2 A q HA Ho) as (A2 & f & HQ2 & HA2). pose proof (HQ2 s) as X. rewrite Hq in X.
  assert (A2 = A1) by congruence. assert (s1 = f s) by congruence. subst A2 s1. exists A1, f. split; [exact HQ2|]. split; [auto|]. split; [split; auto|]. split; auto.
Qed.
Lemma xord3_ord3 (A : F) q : xord3 A (e3 P) q <-> ord3 (e3 P) A q.
Proof. symmetry. apply (ord3_xord F (e3 P) He3). Qed.
Lemma isoB (E : curve O) (A : F) Kp p Q s wb tp E' Q' bk tp' : relC E A -> SS A -> repp Kp p -> orelp Q s ->
  Isogeny_B O P E Kp Q wb tp = Ok (Some (E', Q', bk), tp') ->
  ord3 (e3 P) A p /\ exists A1 g d, C3 (e3 P) A p A1 g /\ D3 (e3 P) A p d /\ SS A1 /\ relC E' A1 /\ orelp Q' (g s) /\ (Q' = None <-> Q = None) /\
    (if wb then exists b, bk = Some b /\ repp b d else bk = None /\ tp' = tp).
Proof.
  intros [HC HE] HA HK HQ EI. pose proof He3 as H3. pose proof (ns _ HA) as NA.
  destruct (xord3_dec F unit sqrt lt enc dec rnd K HS A p) as [Ho|No].
  2:{ rewrite (Isogeny_B_no F unit sqrt lt enc dec rnd two P HS E A HC HE NA Kp Q p HK wb tp No) in EI. discriminate. }
  destruct (Isogeny_B_yes F unit sqrt lt enc dec rnd two P HS E A HC HE NA Kp Q p s HK HQ wb tp Ho)
    as (A1 & R1 & t & Q1 & E1 & EY & HA1 & Ht & HR1 & HC1 & HE1 & (r1 & Hch & HQ1) & HN & Hlast).
  apply xord3_ord3 in Ho. split; [exact Ho|]. rewrite EY in EI. clear EY.
  set (g := fun y : xl F => match chain3 (e3 P) A p y with Some (_, z) => z | None => XInf end).
  assert (HC3 : C3 (e3 P) A p (A3 A1 t) g).
  { intros y. unfold g. destruct (chain3_cod F (e3 P) A p s y _ _ Hch) as (s' & ->). reflexivity. }
  assert (Eg : g s = phi3x t r1) by (unfold g; rewrite Hch; reflexivity).
  exists (A3 A1 t), g, (dual F t). split; [exact HC3|]. split; [exists A1, t; auto|]. split; [exact (chain3_ss F two SS HSS (e3 P) A p XInf _ _ HA (or_intror Ho) (HC3 XInf))|].
  assert (HB : relC E1 (A3 A1 t)) by (split; auto). rewrite Eg.
  destruct wb; cbn [bind] in EI.
  - destruct (back_B_loop O P (S (length tp)) A1 R1 tp) as [[b t2]| | | |] eqn:EB; cbn [bind omap] in EI; try discriminate.
    assert (E1 = E') by congruence. assert (Q1 = Q') by congruence. subst E1 Q1. repeat (split; [assumption|]).
    apply (back_B_ok F unit sqrt lt enc dec rnd two sqrt_ok P A1 R1 t HA1 HR1) in EB as (y & Ny & Hy & Hb).
    destruct (two_ker3 F two A1 t y Ht Hy Ny) as (N3 & Nk & Ey). assert (bk = Some (eval_3_isog O (snd (get_3_isog O R1)) b)) as -> by congruence. eexists. split; [reflexivity|].
    unfold dual. rewrite <- Ey. exact (ev3_rep F unit sqrt lt enc dec rnd two A1 HA1 t Ht R1 b (XF y) HR1 Hb).
  - assert (E1 = E') by congruence. assert (Q1 = Q') by congruence. subst E1 Q1. repeat (split; [assumption|]). cbn [omap] in EI. split; congruence.
Qed.

(** ** Random points *)
Lemma div_relC (E : curve O) (A : F) : relC E A -> fp2div O (cA E) (cC E) = A.
Proof. intros [HC HE]. apply (div_eq F unit sqrt lt enc dec rnd); auto. Qed.
Lemma Random_Point_ok (E : curve O) (A : F) l2 avoid tp R tp' : relC E A -> SS A -> Random_Point_AB O P E l2 avoid tp = Ok (R, tp') ->
  exists q e x, repp R q /\ ((if l2 then e2 P else e3 P) <= e)%nat /\ (if l2 then xord2 A e q else xord3 A e q) /\
    Nat.iter (e - 1) (if l2 then dblx A else tplx A) q = XF x /\ forall a y, avoid = Some a -> repp a (XF y) -> x <> y.
Proof.
  intros HE HA. unfold Random_Point_AB. rewrite (div_relC E A HE). generalize n9999. intros k. revert tp.
  induction k as [|k IH]; intros tp; cbn [Random_Point_loop]; [discriminate|].
  destruct (random_point_with_order O (e2 P) (e3 P) A l2 tp) as [[[[R0 e] Q0] t1]| | | |] eqn:ER; cbn [bind]; try discriminate.
  destruct (Nat.ltb_spec e (if l2 then e2 P else e3 P)) as [|He]; [apply IH|].
  apply (rpwo_ok F unit sqrt lt enc dec rnd two sqrt_ok A _ _ _ _ _ _ _ _ (ns _ HA)) in ER as (q & x & HR & HQ & H1 & Ho & Ex & _).
  destruct (match avoid with Some a => point_equal O Q0 a | None => false end) eqn:EV; [apply IH|].
  intros EE. assert (R0 = R) by congruence. subst R0. exists q, e, x. repeat (split; [assumption|]).
  intros a y -> Ha Exy. rewrite (point_equal_xf F unit sqrt lt enc dec rnd _ _ _ _ HQ Ha) in EV. destruct (kdec x y); congruence.
Qed.
Lemma ord_exact {T} (f : T -> T) (inf q : T) e e' : (forall i, (i < e)%nat -> Nat.iter i f q <> inf) -> Nat.iter e' f q = inf -> (e' <= e)%nat -> e = e'.
Proof. intros H1 H2 H3. destruct (Nat.eq_dec e e') as [|N]; [auto|]. exfalso. apply (H1 e'); [lia|auto]. Qed.

(** ** Random chains *)
Definition relL (Es : list (curve O)) (Ps : list (pt O)) (l : list (F * xl F)) : Prop :=
  Forall2 relC Es (map fst l) /\ Forall2 repp Ps (map snd l).
Lemma chain_A_raw k : forall (E : curve O) (A : F) first tp Es Ps tp', relC E A -> SS A -> random_chain_A K O k first E tp = Ok (Es, Ps, tp') ->
  exists l A'' f E'' Es0, raw2 (negb first) A l A'' f /\ length l = k /\ Es = Es0 ++ [E''] /\ relL Es0 Ps l /\ relC E'' A''.
Proof.
  induction k as [|k IH]; intros E A first tp Es Ps tp' HE HA; cbn [random_chain_A].
  { intros EE. assert (Es = [E]) by congruence. assert (Ps = []) by congruence. subst. exists [], A, (fun y => y), E, []. split; [constructor|]. repeat split; try constructor; auto; apply HE. }
  destruct (Random_Point_AB O P E true (if first then None else Some (Pback_A O)) tp) as [[R t1]| | | |] eqn:ER; cbn [bind]; try discriminate.
  destruct (Random_Point_ok E A true _ tp R t1 HE HA ER) as (q & e & x & HR & Hle & Hord & Ex & Hav).
  destruct (Isogeny_A O P E R None) as [[[E1 Q1]|]| | | |] eqn:EI; cbn [bind]; try discriminate.
  destruct (isoA E A R q None XInf E1 Q1 HE HA HR I EI) as (Ho & A1 & f & HQ & HA1 & HE1 & _).
  destruct (random_chain_A K O k false E1 t1) as [[[Es1 Ps1] t2]| | | |] eqn:EC; cbn [bind]; try discriminate.
  destruct (IH E1 A1 false t1 Es1 Ps1 t2 HE1 HA1 EC) as (l & A'' & g & E'' & Es0 & Hraw & Hl & -> & [HL1 HL2] & HE'').
  intros EE. assert (Es = E :: Es0 ++ [E'']) by congruence. assert (Ps = R :: Ps1) by congruence. subst Es Ps. clear EE.
  exists ((A, q) :: l), A'', (fun y => g (f y)), E'', (E :: Es0). split; [|split; [cbn; lia|split; [reflexivity|split; [split; constructor; auto|auto]]]].
  econstructor; eauto. intros Nf. destruct first; [discriminate|].
  assert (e = e2 P) as ->. { destruct Ho as [Ho _], Hord as [_ Hord]. apply (ord_exact (dblx A) XInf q); auto. }
  rewrite Ex. assert (Hb : repp (Pback_A O) (XF 0)) by (split; cbn; [exact unit_nz|match goal with |- ?a = ?b => change (@eq (Fld.K F) a b) end; ring]).
  intros E0. apply (Hav _ 0 eq_refl Hb). congruence.
Qed.
Definition relO (a : option (pt O)) (d : option (xl F)) : Prop :=
  match a, d with None, None => True | Some b, Some (XF y) => repp b (XF y) | _, _ => False end.
Lemma chain_B_raw k : forall (E : curve O) (A : F) back o tp Es Ps tp', relC E A -> SS A -> relO back o -> random_chain_B K O k back E tp = Ok (Es, Ps, tp') ->
  exists l A'' E'' Es0, raw3 o A l A'' /\ length l = k /\ Es = Es0 ++ [E''] /\ relL Es0 Ps l /\ relC E'' A''.
Proof.
  induction k as [|k IH]; intros E A back o tp Es Ps tp' HE HA Hb; cbn [random_chain_B].
  { intros EE. assert (Es = [E]) by congruence. assert (Ps = []) by congruence. subst. exists [], A, E, []. split; [constructor|]. repeat split; try constructor; auto; apply HE. }
  destruct (Random_Point_AB O P E false back tp) as [[R t1]| | | |] eqn:ER; cbn [bind]; try discriminate.
  destruct (Random_Point_ok E A false _ tp R t1 HE HA ER) as (q & e & x & HR & Hle & Hord & Ex & Hav).
  destruct (Isogeny_B O P E R None true t1) as [[[[[E1 Q1] bk]|] t2]| | | |] eqn:EI; cbn [bind]; try discriminate.
  destruct (isoB E A R q None XInf true t1 E1 Q1 bk t2 HE HA HR I EI) as (Ho & A1 & g & d & HC & HD & HA1 & HE1 & _ & _ & b & -> & Hb1).
  destruct (random_chain_B K O k (Some b) E1 t2) as [[[Es1 Ps1] t3]| | | |] eqn:EC; cbn [bind]; try discriminate.
  assert (Hrel : relO (Some b) (Some d)). { destruct HD as (A2 & t & _ & ->). exact Hb1. }
  destruct (IH E1 A1 (Some b) (Some d) t2 Es1 Ps1 t3 HE1 HA1 Hrel EC) as (l & A'' & E'' & Es0 & Hraw & Hl & -> & [HL1 HL2] & HE'').
  intros EE. assert (Es = E :: Es0 ++ [E'']) by congruence. assert (Ps = R :: Ps1) by congruence. subst Es Ps. clear EE.
  exists ((A, q) :: l), A'', E'', (E :: Es0). split; [|split; [cbn; lia|split; [reflexivity|split; [split; constructor; auto|auto]]]].
  econstructor; eauto. intros y Ey. subst o. unfold relO in Hb. destruct back as [a|]; [|contradiction]. destruct y as [|y]; [contradiction|].
  assert (e = e3 P) as ->. { apply xord3_ord3 in Ho. destruct Ho as [Ho _], Hord as [_ Hord]. apply (ord_exact (tplx A) XInf q); auto. }
  rewrite Ex. intros E0. apply (Hav _ y eq_refl Hb). congruence.
Qed.

(** ** The square *)
Lemma C3_ex0 n : forall (A : F) p, A * A <> 4 -> (n = 0%nat \/ ord3 n A p) -> exists Ap g, C3 n A p Ap g.
Proof.
  induction n as [|n IH]; intros A p HA Ho.
  - exists A, (fun y => y). intros y. reflexivity.
  - destruct Ho as [|Ho]; [discriminate|]. destruct (ord3_S F sqrt lt enc dec rnd _ _ _ Ho) as (t & Et & Ht).
    destruct (IH (A3 A t) (phi3x t p)) as (Ap & g & Hg).
    + exact (cod3 F unit sqrt lt enc dec rnd two A HA t Ht).
    + destruct n as [|n]; [auto|right]. exact (next3 F unit sqrt lt enc dec rnd two A n p t HA Ho Et Ht).
    + exists Ap, (fun y => g (phi3x t y)). intros y. cbn [chain3]. rewrite Et. apply Hg.
Qed.
Lemma C3_ex (A : F) p : SS A -> ord3 (e3 P) A p -> exists Ap g, C3 (e3 P) A p Ap g /\ SS Ap.
Proof.
  intros HA Ho. destruct (C3_ex0 (e3 P) A p (ns _ HA) (or_intror Ho)) as (Ap & g & Hg). exists Ap, g. split; [auto|].
  exact (C3_ss F two SS HSS (e3 P) A p Ap g HA Ho Hg).
Qed.
Lemma C3_fun (A : F) p A1 g A2 g2 : C3 (e3 P) A p A1 g -> C3 (e3 P) A p A2 g2 -> A1 = A2 /\ forall y, g y = g2 y.
Proof. intros H1 H2. split; [pose proof (H1 XInf); pose proof (H2 XInf); congruence|]. intros y. pose proof (H1 y). pose proof (H2 y). congruence. Qed.
Lemma Q2_fun (A : F) q A1 f A2 f2 : Q2 A q A1 f -> Q2 A q A2 f2 -> A1 = A2 /\ forall y, f y = f2 y.
Proof. intros H1 H2. split; [pose proof (H1 XInf); pose proof (H2 XInf); congruence|]. intros y. pose proof (H1 y). pose proof (H2 y). congruence. Qed.
Lemma row_ok b A l Aw f : raw2 b A l Aw f -> forall Es Ps El Kl p Es' Ps' E R, SS A -> relL Es Ps l -> relC El A -> repp Kl p -> ord3 (e3 P) A p ->
  square_row K O Es Ps El Kl = Ok (Es', Ps', E, R) ->
  exists Ap g l' Aw' f' g', C3 (e3 P) A p Ap g /\ C3 (e3 P) Aw (f p) Aw' g' /\ raw2 b Ap l' Aw' f' /\ length l' = length l /\ SS Ap /\ SS Aw /\
    relL Es' Ps' l' /\ relC E Aw /\ repp R (f p) /\ ord3 (e3 P) Aw (f p) /\ forall d, D3 (e3 P) A p d -> D3 (e3 P) Aw (f p) (f' d).
Proof.
  induction 1 as [b A|b A q A1 f l A'' g Ho Nb HQ H IH]; intros Es Ps El Kl p Es' Ps' E R HA [HL1 HL2] HE HK Hp; cbn [map fst snd] in HL1, HL2.
  - inversion HL1; subst. cbn [square_row]. intros EE. assert (Es' = []) by congruence. assert (Ps' = []) by congruence. assert (E = El) by congruence. assert (R = Kl) by congruence. subst.
    set (g := fun y : xl F => match chain3 (e3 P) A p y with Some (_, z) => z | None => XInf end).
    assert (X : exists Ap, C3 (e3 P) A p Ap g /\ SS Ap).
    { destruct (C3_ex A p HA Hp) as (Ap & g0 & H1 & H2). exists Ap. split; [|auto]. intros y. unfold g. rewrite H1. reflexivity. }
    destruct X as (Ap & H1 & H2). exists Ap, g, [], Ap, (fun y => y), g. split; [auto|]. split; [auto|]. split; [constructor|]. repeat (split; [assumption || constructor; constructor || reflexivity|]). auto.
  - inversion HL1 as [|Et a0 Es0 l0 HEt HL1' E1 E2]; subst a0 l0 Es. inversion HL2 as [|Kt q0 Ps0 l0 HKt HL2' E1 E2]; subst q0 l0 Ps.
    cbn [square_row]. destruct (Isogeny_A O P Et Kt (Some Kl)) as [[[Er Qr]|]| | | |] eqn:EA; cbn [bind]; try discriminate.
    2:{ destruct (Isogeny_B O P El Kl (Some Kt) false []) as [[bb tb]| | | |]; cbn [bind]; discriminate. }
    destruct (Isogeny_B O P El Kl (Some Kt) false []) as [[[[[Eb Qb] bk]|] tb]| | | |] eqn:EB; cbn [bind]; try (destruct Qr; discriminate); try discriminate.
    destruct (isoA Et A Kt q (Some Kl) p Er Qr HEt HA HKt HK EA) as (_ & A1' & f0 & HQ0 & HA1 & HEr & HQr & HNr).
    destruct (Q2_fun A q A1' f0 A1 f HQ0 HQ) as [-> Ef]. rewrite Ef in HQr. clear f0 Ef HQ0.
    destruct (isoB El A Kl p (Some Kt) q false [] Eb Qb bk tb HE HA HK HKt EB) as (_ & Ap & g0 & d0 & HC0 & _ & HAp & HEb & HQb & HNb & _).
    destruct Qr as [Kr|]; [|destruct HNr as [X _]; discriminate (X eq_refl)]. destruct Qb as [Kb|]; [|destruct HNb as [X _]; discriminate (X eq_refl)]. cbn [orel] in HQr, HQb.
    destruct (Q2_grid F two three SS HSS other Hot Hor (e2 P) He2 (e3 P) A p q A1 f HA Ho HQ He3 Hp) as (Ap' & gp & A' & f' & g' & HC1 & HC2 & HQ' & Hcomm & _ & _ & Hp1 & Ho' & Nb' & HD).
    destruct (C3_fun A p Ap g0 Ap' gp HC0 HC1) as [<- Eg]. rewrite Eg in HQb.
    destruct (square_row K O Es0 Ps0 Er Kr) as [[[[Es1 Ps1] E1] R1]| | | |] eqn:ES; cbn [bind]; try discriminate.
    intros EE. assert (Es' = Eb :: Es1) by congruence. assert (Ps' = Kb :: Ps1) by congruence. assert (E1 = E) by congruence. assert (R1 = R) by congruence. subst Es' Ps' E1 R1. clear EE.
    destruct (IH Es0 Ps0 Er Kr (f p) Es1 Ps1 E R HA1 (conj HL1' HL2') HEr HQr Hp1 ES) as (Ap1 & g1 & l' & Aw' & f1 & g2 & G1 & G2 & G3 & G4 & G5 & G6 & [G7 G7'] & G8 & G9 & G10 & G11).
    destruct (C3_fun A1 (f p) A' g' Ap1 g1 HC2 G1) as [<- _].
    exists Ap, gp, ((Ap, gp q) :: l'), Aw', (fun y => f1 (f' y)), g2. split; [exact HC1|]. split; [exact G2|]. split.
    { econstructor; eauto. }
    split; [cbn; lia|]. split; [auto|]. split; [auto|]. split; [split; constructor; auto|]. split; [auto|]. split; [auto|]. split; [auto|]. intros d Hd. apply G11, HD, Hd.
Qed.
(** All rows. *)
Lemma rows_ok o A lft A2 : raw3 o A lft A2 -> forall Els Kls l Aw f b Es Ps Es' Ps' rgt, SS A -> relL Els Kls lft -> raw2 b A l Aw f -> relL Es Ps l ->
  (forall x, o = Some x -> tplx A x = XInf) ->
  square_rows K O (combine Els Kls) Es Ps = Ok (Es', Ps', rgt) ->
  exists l' A3 f' lr, raw2 b A2 l' A3 f' /\ length l' = length l /\ relL Es' Ps' l' /\ raw3 (option_map f o) Aw lr A3 /\ length lr = length lft /\ relL (map fst rgt) (map snd rgt) lr.
Proof.
  induction 1 as [o A|o A p Ap g d' lft A2 Ho Nd Hc Hd H IH]; intros Els Kls l Aw f b Es Ps Es' Ps' rgt HA [HL1 HL2] Hraw HL Ht; cbn [map fst snd] in HL1, HL2.
  - inversion HL1; subst. cbn [combine square_rows]. intros EE. assert (Es' = Es) by congruence. assert (Ps' = Ps) by congruence. assert (rgt = []) by congruence. subst.
    exists l, Aw, f, []. split; [auto|]. split; [auto|]. split; [auto|]. split; [constructor|]. split; [reflexivity|]. split; constructor.
  - inversion HL1 as [|El a0 Els0 l0 HEl HL1' E1 E2]; subst a0 l0 Els. inversion HL2 as [|Kl q0 Kls0 l0 HKl HL2' E1 E2]; subst q0 l0 Kls.
    cbn [combine square_rows]. destruct (square_row K O Es Ps El Kl) as [[[[Es1 Ps1] Er] Kr]| | | |] eqn:ES; cbn [bind]; try discriminate.
    destruct (square_rows K O (combine Els0 Kls0) Es1 Ps1) as [[[Es2 Ps2] rgt2]| | | |] eqn:ES2; cbn [bind]; try discriminate.
    intros EE. assert (Es2 = Es') by congruence. assert (Ps2 = Ps') by congruence. assert (rgt = (Er, Kr) :: rgt2) by congruence. subst Es2 Ps2 rgt. clear EE.
    destruct (row_ok b A l Aw f Hraw Es Ps El Kl p Es1 Ps1 Er Kr HA HL HEl HKl Ho ES) as (Ap' & g0 & l1 & Aw1 & f1 & g1 & G1 & G2 & G3 & G4 & G5 & G6 & G7 & G8 & G9 & G10 & G11).
    destruct (C3_fun A p Ap g Ap' g0 Hc G1) as [<- _].
    assert (Ht' : forall x, Some d' = Some x -> tplx Ap x = XInf).
    { intros x Ex. assert (x = d') as -> by congruence. pose proof He3 as H3. assert (EE : e3 P = S (e3 P - 1)) by lia. rewrite EE in Ho, Hc, Hd.
      apply (D3_tor F two three (e3 P - 1) A p Ap g d' (ns _ HA) Ho Hc Hd). }
    destruct (IH Els0 Kls0 l1 Aw1 f1 b Es1 Ps1 Es' Ps' rgt2 G5 (conj HL1' HL2') G3 G7 Ht' ES2) as (l' & A3 & f' & lr & K1 & K2 & K3 & K4 & K5 & [K6 K7]).
    exists l', A3, f', ((Aw, f p) :: lr). split; [exact K1|]. split; [lia|]. split; [exact K3|]. split; [|split; [cbn; lia|split; constructor; auto]].
    cbn [option_map] in K4. econstructor; [exact G10| |exact G2|apply G11; exact Hd|exact K4].
    intros x Ex. destruct o as [d|]; [|discriminate]. cbn [option_map] in Ex. assert (x = f d) as -> by congruence.
    destruct (raw2_facts F two SS HSS other Hot Hor (e2 P) He2 b A l Aw f Hraw HA) as (_ & Hinj & _).
    rewrite <- (raw2_iter F two SS HSS other Hot Hor (e2 P) He2 b A l Aw f Hraw HA). intros E. apply (Nd d eq_refl). apply Hinj; auto.
    destruct Ho as (t & E1 & E2). now rewrite E1.
Qed.
End HC.
