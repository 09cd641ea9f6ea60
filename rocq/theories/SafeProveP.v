(** Generate and Prove: no undefined behaviour (proofs over a field). *)
From Coq Require Import Field.
From Verif Require Import Base BaseP Digits Out Params Fp Poik Hashing HashSpec HashingP Codec CodecSpec Ops Ec Models Proto Fld FieldOps CurveSpec IsogSpec ModelSpec XSpec ProtoSpec WalkSpec FldCurve GroupP MultP IsoP FldIsog FldModels
  LadderP XLine XIso Strategy XChain CheckP XIsog WalkP SquareP KumP GridP BasisP IsoStepP IsoChainP OddP RawP ChainP OpenP HonestChainP TapeP PackP HonestP SafeSpec SafeP.
Set Bullet Behavior "Strict Subproofs".

Lemma order_is {T} (f : T -> T) (inf q : T) e e' : (forall i, (i < e)%nat -> Nat.iter i f q <> inf) -> Nat.iter e' f q = inf -> (e' <= e)%nat -> e = e'.
Proof. intros H1 H2 H3. destruct (Nat.eq_dec e e') as [|N]; [auto|]. exfalso. apply (H1 e'); [lia|auto]. Qed.
Section PP.
Variable F : fld.
Variables (unit : F) (sqrt : F -> F) (lt : F -> F -> bool) (enc : F -> list Z) (dec : list Z -> F) (rnd : tape -> out (F * tape)).
Notation O := (fld_ops F unit sqrt lt enc dec rnd).
Hypothesis two : (kadd k1 k1 : F) <> k0.
Hypothesis three : (kadd k1 (kadd k1 k1) : F) <> k0.
Hypothesis unit_nz : unit <> k0.
Hypothesis sqrt_ok : forall x z : F, x = kmul z z -> kmul (sqrt x) (sqrt x) = x.
Hypothesis lt_irr : forall x, lt x x = false.
Hypothesis lt_trans : forall x y z, lt x y = true -> lt y z = true -> lt x z = true.
Hypothesis lt_total : forall x y, lt x y = false -> lt y x = false -> x = y.
Local Open Scope fld_scope.
Definition kth53 := kth F.
Add Field KF53 : kth53.
Notation repp := (repp F unit sqrt lt enc dec rnd).
Notation orelp := (orel O (xl F) repp).
Notation other := (other_model F unit sqrt lt enc dec rnd).
Notation canon := (canon_model F unit sqrt lt enc dec rnd).
Variable SS : F -> Prop.
Hypothesis HSS : isog_class SS.
Notation ns := (ss_ns F SS HSS).
Variable K : pok.
Notation P := (fpar K).
Hypothesis HS : strat_good P.
Notation Hot := (other_isos F unit sqrt lt enc dec rnd two sqrt_ok SS HSS).
Notation Hor := (other_r F unit sqrt lt enc dec rnd two sqrt_ok SS HSS).
Notation He2 := (HonestP.He2 K HS). Notation He3 := (HonestP.He3 K HS).
Notation C3 := (C3 F). Notation D3 := (D3 F).
Notation raw2 := (raw2 F other (e2 P)). Notation raw3 := (raw3 F (e3 P)).
Notation relC := (relC F unit sqrt lt enc dec rnd). Notation relL := (relL F unit sqrt lt enc dec rnd).
Notation ord3 := (ord3 F).
Hypothesis rand_short : forall tp x tp', rnd tp = Ok (x, tp') -> (length tp' < length tp)%nat.
Hypothesis rand_def : forall tp, defined (rnd tp).
Hypothesis kill : forall (A : F) M, SS A -> on A 1 M -> pmul A 1 (2 ^ e2 P * 3 ^ e3 P) M = Inf.

Lemma A_yes (E : curve O) (A : F) Kp q Q s : relC E A -> SS A -> repp Kp q -> orelp Q s -> xord2 A (e2 P) q ->
  exists E' Q', Isogeny_A O P E Kp Q = Ok (Some (E', Q')) /\ (Q' = None <-> Q = None).
Proof.
  intros [HC HE] HA HK HQ Ho.
  destruct (proj1 (Isogeny_A_ok F unit sqrt lt enc dec rnd two sqrt_ok P HS E A HC HE (ss_full4 HSS A HA) Kp Q q s HK HQ) Ho) as (E1 & Q1 & A1 & s1 & EY & _ & _ & _ & _ & _ & HN & _).
  eauto.
Qed.
Lemma B_yes (E : curve O) (A : F) Kp p Q s tp : relC E A -> SS A -> repp Kp p -> orelp Q s -> ord3 (e3 P) A p ->
  exists E' Q', Isogeny_B O P E Kp Q false tp = Ok (Some (E', Q', None), tp) /\ (Q' = None <-> Q = None).
Proof.
  intros [HC HE] HA HK HQ Ho. apply (ord3_xord F (e3 P) He3) in Ho.
  destruct (Isogeny_B_yes F unit sqrt lt enc dec rnd two P HS E A HC HE (ns _ HA) Kp Q p s HK HQ false tp Ho) as (A1 & R1 & t & Q1 & E1 & EY & _ & _ & _ & _ & _ & _ & HN & _).
  exists E1, Q1. split; [exact EY|exact HN].
Qed.
Lemma B_back (E : curve O) (A : F) Kp p tp : relC E A -> SS A -> repp Kp p -> ord3 (e3 P) A p ->
  defined (Isogeny_B O P E Kp None true tp) /\ forall t, Isogeny_B O P E Kp None true tp <> Ok (None, t).
Proof.
  intros [HC HE] HA HK Ho. apply (ord3_xord F (e3 P) He3) in Ho.
  destruct (Isogeny_B_yes F unit sqrt lt enc dec rnd two P HS E A HC HE (ns _ HA) Kp None p XInf HK I true tp Ho) as (A1 & R1 & t & Q1 & E1 & EY & _).
  rewrite EY. clear EY. pose proof (back_def O P rand_short rand_def A1 R1 (S (length tp)) tp ltac:(lia)) as D.
  destruct (back_B_loop O P (S (length tp)) A1 R1 tp) as [[b t2]| | | |]; cbn [bind omap]; (split; [exact D|discriminate]).
Qed.
(** ** Random points have the full order *)
Lemma kill_x (A x0 y0 : F) : SS A -> on A 1 (Aff x0 y0) ->
  Nat.iter (e2 P) (dblx A) (Nat.iter (e3 P) (tplx A) (XF x0)) = XInf /\ Nat.iter (e3 P) (tplx A) (Nat.iter (e2 P) (dblx A) (XF x0)) = XInf.
Proof.
  intros HA Hon. pose proof (kill A _ HA Hon) as H. change (XF x0) with (xof (Aff x0 y0)). pose proof (ns _ HA) as NA. pose proof (one_nz F) as N1.
  pose proof (pmul_on F two A 1 NA N1) as PO.
  rewrite (tpl_pt F two A 1 NA N1), (dbl_pt F two A 1 NA N1) by auto.
  rewrite (dbl_pt F two A 1 NA N1), (tpl_pt F two A 1 NA N1) by auto.
  rewrite <- !(pmul_mul F two A 1 NA N1) by auto. rewrite (Nat.mul_comm (3 ^ e3 P)). rewrite H. auto.
Qed.
Lemma Random_Point_full (E : curve O) (A : F) l2 av tp R tp' : relC E A -> SS A -> Random_Point_AB O P E l2 av tp = Ok (R, tp') ->
  exists q, repp R q /\ if l2 then xord2 A (e2 P) q else ord3 (e3 P) A q.
Proof.
  intros HE HA. unfold Random_Point_AB. rewrite (div_relC F unit sqrt lt enc dec rnd E A HE). generalize n9999. intros k. revert tp.
  induction k as [|k IH]; intros tp; cbn [Random_Point_loop]; [discriminate|].
  destruct (random_point_with_order O (e2 P) (e3 P) A l2 tp) as [[[[R0 e] Q0] t1]| | | |] eqn:ER; cbn [bind]; try discriminate.
  destruct (Nat.ltb_spec e (if l2 then e2 P else e3 P)) as [|Hle]; [apply IH|].
  apply (rpwo_ok F unit sqrt lt enc dec rnd two sqrt_ok A _ _ _ _ _ _ _ _ (ns _ HA)) in ER as (q & x & HR & HQ & H1 & Ho & Ex & x0 & y0 & Hon & Eq).
  destruct (match av with Some a => point_equal O Q0 a | None => false end); [apply IH|].
  intros EE. assert (R0 = R) by congruence. subst R0. exists q. split; [exact HR|]. destruct (kill_x A x0 y0 HA Hon) as [K2 K3].
  destruct l2; rewrite <- Eq in *.
  - assert (e = e2 P) as <-; [|exact Ho]. destruct Ho as [_ Ho]. apply (order_is (dblx A) XInf q); auto.
  - apply (ord3_xord F (e3 P) He3). assert (e = e3 P) as <-; [|exact Ho]. destruct Ho as [_ Ho]. apply (order_is (tplx A) XInf q); auto.
Qed.
(** ** Random chains *)
Lemma chain_A_def k : forall (E : curve O) (A : F) first tp, relC E A -> SS A -> defined (random_chain_A K O k first E tp).
Proof.
  induction k as [|k IH]; intros E A first tp HE HA; cbn [random_chain_A]; [exact I|].
  apply defined_bind; [apply (Random_Point_def O P rand_short rand_def)|]. intros [R t1] ER.
  destruct (Random_Point_full E A true _ tp R t1 HE HA ER) as (q & HR & Ho).
  destruct (A_yes E A R q None XInf HE HA HR I Ho) as (E1 & Q1 & EI & _). rewrite EI. cbn [bind].
  destruct (isoA F unit sqrt lt enc dec rnd two sqrt_ok lt_irr lt_trans lt_total SS HSS K HS E A R q None XInf E1 Q1 HE HA HR I EI) as (_ & A1 & f & _ & HA1 & HE1 & _).
  apply defined_bind; [exact (IH E1 A1 false t1 HE1 HA1)|]. intros [[Es Ps] t2] _. exact I.
Qed.
Lemma chain_B_def k : forall (E : curve O) (A : F) back tp, relC E A -> SS A -> defined (random_chain_B K O k back E tp).
Proof.
  induction k as [|k IH]; intros E A back tp HE HA; cbn [random_chain_B]; [exact I|].
  apply defined_bind; [apply (Random_Point_def O P rand_short rand_def)|]. intros [R t1] ER.
  destruct (Random_Point_full E A false _ tp R t1 HE HA ER) as (q & HR & Ho).
  destruct (B_back E A R q t1 HE HA HR Ho) as [D N].
  destruct (Isogeny_B O P E R None true t1) as [[[[[E1 Q1] bk]|] t2]| | | |] eqn:EI; cbn [bind]; try exact D; [|now destruct (N t2)].
  destruct (isoB F unit sqrt lt enc dec rnd two sqrt_ok lt_irr lt_trans lt_total SS HSS K HS E A R q None XInf true t1 E1 Q1 bk t2 HE HA HR I EI) as (_ & A1 & g & d & _ & _ & HA1 & HE1 & _).
  apply defined_bind; [exact (IH E1 A1 bk t2 HE1 HA1)|]. intros [[Es Ps] t3] _. exact I.
Qed.
(** ** The square *)
Lemma row_def b A l Aw f : raw2 b A l Aw f -> forall Es Ps El Kl p, SS A -> relL Es Ps l -> relC El A -> repp Kl p -> ord3 (e3 P) A p ->
  defined (square_row K O Es Ps El Kl).
Proof.
  induction 1 as [b A|b A q A1 f l A'' g Ho Nb HQ H IH]; intros Es Ps El Kl p HA [HL1 HL2] HE HK Hp; cbn [map fst snd] in HL1, HL2.
  - inversion HL1; subst. exact I.
  - inversion HL1 as [|Et a0 Es0 l0 HEt HL1' E1 E2]; subst a0 l0 Es. inversion HL2 as [|Kt q0 Ps0 l0 HKt HL2' E1 E2]; subst q0 l0 Ps.
    cbn [square_row].
    destruct (A_yes Et A Kt q (Some Kl) p HEt HA HKt HK Ho) as (Er & Qr & EA & HNr). rewrite EA. cbn [bind].
    destruct (B_yes El A Kl p (Some Kt) q [] HE HA HK HKt Hp) as (Eb & Qb & EB & HNb). rewrite EB. cbn [bind].
    destruct (isoA F unit sqrt lt enc dec rnd two sqrt_ok lt_irr lt_trans lt_total SS HSS K HS Et A Kt q (Some Kl) p Er Qr HEt HA HKt HK EA) as (_ & A1' & f0 & HQ0 & HA1 & HEr & HQr & _).
    destruct (Q2_fun F unit sqrt lt enc dec rnd K A q A1' f0 A1 f HQ0 HQ) as [-> Ef]. rewrite Ef in HQr. clear f0 Ef HQ0.
    destruct Qr as [Kr|]; [|destruct HNr as [X _]; discriminate (X eq_refl)]. destruct Qb as [Kb|]; [|destruct HNb as [X _]; discriminate (X eq_refl)]. cbn [orel] in HQr.
    destruct (Q2_grid F two three SS HSS other Hot Hor (e2 P) He2 (e3 P) A p q A1 f HA Ho HQ He3 Hp) as (Ap' & gp & A' & f' & g' & _ & _ & _ & _ & _ & _ & Hp1 & _ & _ & _).
    apply defined_bind; [exact (IH Es0 Ps0 Er Kr (f p) HA1 (conj HL1' HL2') HEr HQr Hp1)|]. intros [[[Es1 Ps1] E1] R1] _. exact I.
Qed.
Lemma rows_def o A lft A2 : raw3 o A lft A2 -> forall Els Kls l Aw f b Es Ps, SS A -> relL Els Kls lft -> raw2 b A l Aw f -> relL Es Ps l ->
  defined (square_rows K O (combine Els Kls) Es Ps).
Proof.
  induction 1 as [o A|o A p Ap g d' lft A2 Ho Nd Hc Hd H IH]; intros Els Kls l Aw f b Es Ps HA [HL1 HL2] Hraw HL; cbn [map fst snd] in HL1, HL2.
  - inversion HL1; subst. exact I.
  - inversion HL1 as [|El a0 Els0 l0 HEl HL1' E1 E2]; subst a0 l0 Els. inversion HL2 as [|Kl q0 Kls0 l0 HKl HL2' E1 E2]; subst q0 l0 Kls.
    cbn [combine square_rows]. apply defined_bind; [exact (row_def b A l Aw f Hraw Es Ps El Kl p HA HL HEl HKl Ho)|]. intros [[[Es1 Ps1] Er] Kr] ES.
    destruct (row_ok F unit sqrt lt enc dec rnd two three sqrt_ok lt_irr lt_trans lt_total SS HSS K HS b A l Aw f Hraw Es Ps El Kl p Es1 Ps1 Er Kr HA HL HEl HKl Ho ES)
      as (Ap' & g0 & l1 & Aw1 & f1 & g1 & G1 & G2 & G3 & G4 & G5 & G6 & G7 & G8 & G9 & G10 & G11).
    destruct (C3_fun F K A p Ap g Ap' g0 Hc G1) as [<- _].
    apply defined_bind; [exact (IH Els0 Kls0 l1 Aw1 f1 b Es1 Ps1 G5 (conj HL1' HL2') G3 G7)|]. intros [[Es2 Ps2] rgt] _. exact I.
Qed.
(** ** Packing *)
Notation relP := (relP F unit sqrt lt enc dec rnd).
Lemma canon_yes (E : curve O) (A : F) : relC E A -> SS A -> exists m, canonical_model O E = Ok m.
Proof.
  intros [HC HE] HA. rewrite (canonical_coef F unit sqrt lt enc dec rnd E A HC HE).
  destruct (canon_ok F unit sqrt lt enc dec rnd two sqrt_ok lt_irr lt_trans lt_total A (ss_full4 HSS A HA)) as (m & E1 & _). eauto.
Qed.
Lemma pack_point_yes (E : curve O) (A : F) R : relC E A -> SS A -> exists x, pack_point O E R = Ok x.
Proof. intros HE HA. unfold pack_point. destruct (canon_yes E A HE HA) as (m & ->). cbn [bind]. eauto. Qed.
Lemma pack_curve_yes (E : curve O) (A : F) : relC E A -> SS A -> exists x, pack_curve O E = Ok x.
Proof. intros HE HA. unfold pack_curve. destruct (canon_yes E A HE HA) as (m & ->). cbn [bind]. eauto. Qed.
Lemma pack_B_yes l : Forall (fun x => SS (fst x)) l -> forall ps, Forall2 relP ps l -> exists xs, Pack_Chain_B O ps = Ok xs.
Proof.
  induction 1 as [|[A q] l HA H IH]; intros ps HR; inversion HR as [|[E R] x0 ps' l0 [HE HQ] HR' E1 E2]; subst; cbn [Pack_Chain_B]; [eauto|].
  cbn [fst] in HE, HA. destruct (pack_point_yes E A R HE HA) as (x & ->). cbn [bind]. destruct (IH ps' HR') as (xs & ->). cbn [bind]. eauto.
Qed.
Lemma take_def n tp : defined (take_bytes n tp). Proof. unfold take_bytes. destruct (Nat.ltb _ _); exact I. Qed.
Hypothesis Hw2 : (2 <= radix P)%Z.
Hypothesis Hw8 : (radix P mod 8 = 0)%Z.
Lemma odd_def tp : defined (random_odd_A K tp).
Proof. unfold random_odd_A. apply defined_bind; [apply take_def|]. intros [buf t] _. exact I. Qed.
Lemma pack_A_def l : Forall (fun x => SS (fst x)) l -> Forall (fun x => xord2 (fst x) (e2 P) (snd x)) l -> forall ps tp, Forall2 relP ps l -> digits 256 tp ->
  defined (Pack_Chain_A K O ps tp).
Proof.
  induction 1 as [|[A q] l HA H IH]; intros H2 ps tp HR D; inversion HR as [|[E R] x0 ps' l0 [HE HQ] HR' E1 E2]; subst; cbn [Pack_Chain_A]; [exact I|].
  inversion H2 as [|? ? Ho H2']; subst. cbn [fst snd] in *. apply defined_bind; [apply odd_def|]. intros [m t1] ER.
  pose proof He2 as Hn. destruct (random_odd_ok K Hw2 Hw8 tp m t1 ltac:(lia) ER D) as (Rt & Dm & Lm & Om). cbv zeta. rewrite (div_relC F unit sqrt lt enc dec rnd E A HE).
  destruct (XLine.lift F A q) as (BB & M & NB & HM & EM).
  assert (Nq : q <> XInf) by (intros ->; destruct Ho as [_ Ho]; apply (Ho 0%nat); [lia|reflexivity]).
  assert (N0 : q <> XF 0) by (intros ->; destruct Ho as [_ Ho]; apply (Ho 1%nat); [lia|]; cbn [Nat.iter nat_rect]; apply (WalkP.zero_two F)).
  assert (XP : pX R <> 0 /\ pZ R <> 0).
  { destruct q as [|y]; [contradiction|]. destruct HQ as [Z1 Z2]. split; [|exact Z1]. rewrite Z2. intros X. apply N0. f_equal. apply (mul_cancel F y 0 (pZ R) Z1). change (@eq (Fld.K F) (y * pZ R) (0 * pZ R)). transitivity (0 : F); [exact X|ring]. }
  assert (HX : xzp F unit sqrt lt enc dec rnd R M). { apply (rep_xz F). rewrite EM. exact HQ. }
  destruct (Ladder_ok F unit sqrt lt enc dec rnd two A BB (ns _ HA) NB (radix P) m R M (e2 P) ltac:(lia) Dm Lm HM HX (proj1 XP) (proj2 XP)) as (Q & EL & _).
  rewrite EL. cbn [bind]. destruct (pack_point_yes E A Q HE HA) as (x & ->). cbn [bind].
  apply defined_bind; [exact (IH H2' ps' t1 HR' (rest_digits _ _ Rt D))|]. intros [xs t2] _. exact I.
Qed.
(** ** One instance *)
Notation secret_rel := (secret_rel F unit sqrt lt enc dec rnd K). Notation instok := (instok F unit sqrt lt enc dec rnd K).
Lemma rev_cons {X} (l : list X) : l <> [] -> exists x t, rev l = x :: t.
Proof. intros N. destruct (rev l) eqn:E; [|eauto]. exfalso. apply N. rewrite <- (rev_involutive l), E. reflexivity. Qed.
Lemma F2_ne {X Y} (R : X -> Y -> Prop) a b : Forall2 R a b -> b <> [] -> a <> []. Proof. intros H N ->. inversion H. congruence. Qed.
Lemma last_rel {X Y} (R : X -> Y -> Prop) a b x t : Forall2 R a b -> rev a = x :: t -> exists b0 y, b = b0 ++ [y] /\ R x y.
Proof.
  intros H E. apply rev_last in E. subst a. assert (N : b <> []) by (intros ->; inversion H; destruct (rev t); discriminate).
  destruct (exists_last N) as (b0 & y & ->). apply Forall2_last in H. eauto.
Qed.
Lemma raw2_at b A l A'' f : raw2 b A l A'' f -> SS A -> Forall (fun x => SS (fst x) /\ xord2 (fst x) (e2 P) (snd x)) l.
Proof.
  intros H HA. pose proof (raw2_SS F two SS HSS other Hot Hor (e2 P) He2 _ _ _ _ _ H HA) as H1. pose proof (raw2_ord F unit sqrt lt enc dec rnd K _ _ _ _ _ H) as H2.
  rewrite Forall_forall in *. auto.
Qed.
Lemma raw3_at o A l A'' : raw3 o A l A'' -> SS A -> Forall (fun x => SS (fst x) /\ ord3 (e3 P) (fst x) (snd x)) l.
Proof.
  intros H HA. pose proof (proj2 (raw3_ss F two SS HSS (e3 P) _ _ _ _ H HA)) as H1. clear HA. induction H; constructor; inversion H1; subst; auto.
Qed.
Lemma pair_last Es Ps (l : list (F * xl F)) E tE R tR : relL Es Ps l -> rev Es = E :: tE -> rev Ps = R :: tR -> exists A q, In (A, q) l /\ relC E A /\ repp R q.
Proof.
  intros [H1 H2] R1 R2. destruct (last_rel _ _ _ _ _ H1 R1) as (b0 & A & Eb & HE). destruct (last_rel _ _ _ _ _ H2 R2) as (c0 & q & Ec & HQ). exists A, q. split; [|auto].
  destruct l as [|xx l _] using rev_ind; [destruct b0; discriminate|]. rewrite !map_app in Eb, Ec. cbn [map] in Eb, Ec. apply app_inj_tail in Eb as [_ E1]. apply app_inj_tail in Ec as [_ E2].
  apply in_or_app. right. left. destruct xx; cbn in *; congruence.
Qed.
Lemma Instance_def sec A0 A1 tp : (0 < width K)%nat -> (0 < height K)%nat -> secret_rel sec A0 A1 -> SS A0 -> defined (Instance K O sec tp).
Proof.
  intros Hw Hh (l & f & Hraw & Ll & HE & HP) HA. unfold Instance. cbv zeta.
  pose proof (unpacks F unit sqrt lt enc dec rnd (sE sec)) as HU. pose proof (unpack_pts F unit sqrt lt enc dec rnd (sP sec)) as HUP. rewrite HE in HU. rewrite HP in HUP.
  destruct (raw2_head F unit sqrt lt enc dec rnd K _ _ _ _ _ Hraw) as (t & Et).
  assert (HEl : Forall2 relC (firstn (width K) (map (unpack_curve O) (sE sec))) (map fst l)).
  { apply (Forall2_firstn relC (width K)) in HU. rewrite <- Ll, <- (map_length fst l), firstn_app, firstn_all, Nat.sub_diag, firstn_O, app_nil_r in HU. now rewrite <- Ll, <- (map_length fst l). }
  rewrite Et in HU. set (bE := map (unpack_curve O) (sE sec)) in *. clearbody bE. set (bP := map (unpack_point O) (sP sec)) in *. clearbody bP.
  inversion HU as [|E0 x0 bE' t' HE0 HU' E1 E2]; subst x0 t'. rewrite E1.
  unfold Random_Isogeny_Chain_B. pose proof (chain_B_def (height K) E0 A0 None tp HE0 HA) as DB.
  destruct (random_chain_B K O (height K) None E0 tp) as [[[Es Ps] t1]| | | |] eqn:EC; cbn [bind]; try exact DB. clear DB.
  destruct (chain_B_raw F unit sqrt lt enc dec rnd two sqrt_ok lt_irr lt_trans lt_total SS HSS K HS _ _ _ None None _ _ _ _ HE0 HA I EC) as (lft & A2 & E'' & Es0 & Hr3 & Lf & -> & HL & HE2).
  cbn [chE chP]. assert (LL : length Es0 = length Ps). { destruct HL as [H1 H2]. apply F2_length in H1, H2. rewrite map_length in *. congruence. }
  rewrite (combine_trunc Es0 Ps [E''] LL).
  apply defined_bind; [exact (rows_def None A0 lft A2 Hr3 Es0 Ps l A1 f false _ bP HA HL Hraw (conj HEl HUP))|]. intros [[b1 b2] rgt] ES.
  destruct (rows_ok F unit sqrt lt enc dec rnd two three sqrt_ok lt_irr lt_trans lt_total SS HSS K HS None A0 lft A2 Hr3 Es0 Ps l A1 f false _ bP b1 b2 rgt HA HL Hraw (conj HEl HUP) ltac:(discriminate) ES)
    as (bot & A3 & fb & lr & G1 & G2 & G3 & G4 & G5 & G6). cbn [option_map] in G4.
  pose proof (proj1 (raw2_facts F two SS HSS other Hot Hor (e2 P) He2 _ _ _ _ _ Hraw HA)) as HA1.
  pose proof (proj1 (raw3_ss F two SS HSS (e3 P) _ _ _ _ Hr3 HA)) as HA2.
  assert (Nb : bot <> []) by (intros ->; cbn in G2; lia). assert (Nr : lr <> []) by (intros ->; cbn in G5; lia).
  assert (M1 : map fst bot <> []) by (destruct bot; [contradiction|discriminate]). assert (M2 : map snd bot <> []) by (destruct bot; [contradiction|discriminate]).
  destruct (rev_cons b1 (F2_ne _ _ _ (proj1 G3) M1)) as (El & b1' & R1). destruct (rev_cons b2 (F2_ne _ _ _ (proj2 G3) M2)) as (Pl & b2' & R2).
  assert (N3 : rgt <> []). { intros ->. destruct G6 as [K1 _]. inversion K1 as [X|]. destruct lr; [contradiction|discriminate]. }
  destruct (rev_cons rgt N3) as ([Er Pr] & rgt' & R3). rewrite R1, R2, R3, rev_app_distr. cbn [rev app].
  destruct (pair_last _ _ _ _ _ _ _ G3 R1 R2) as (A & q & I1 & HEl' & HPl).
  assert (X : exists a p, In (a, p) lr /\ relC Er a /\ repp Pr p).
  { apply (pair_last (map fst rgt) (map snd rgt) lr Er (map fst rgt') Pr (map snd rgt') G6); rewrite <- map_rev, R3; reflexivity. }
  destruct X as (a & p & I2 & HEr & HPr).
  pose proof (raw2_at _ _ _ _ _ G1 HA2) as F1. rewrite Forall_forall in F1. specialize (F1 _ I1). cbn [fst snd] in F1.
  pose proof (raw3_at _ _ _ _ G4 HA1) as F2. rewrite Forall_forall in F2. specialize (F2 _ I2). cbn [fst snd] in F2.
  destruct (A_yes El A Pl q None XInf HEl' (proj1 F1) HPl I (proj2 F1)) as (Ea & Qa & -> & _). cbn [bind].
  destruct (B_yes Er a Pr p None XInf t1 HEr (proj1 F2) HPr I (proj2 F2)) as (Eb & Qb & -> & _). cbn [bind].
  apply defined_bind; [apply take_def|]. intros [r2 t3] _. apply defined_bind; [apply take_def|]. intros [r3 t4] _. exact I.
Qed.
Lemma instances_def sec A0 A1 tps k : (0 < width K)%nat -> (0 < height K)%nat -> secret_rel sec A0 A1 -> SS A0 -> forall i, defined (instances K O sec tps i k).
Proof.
  intros Hw Hh Hs HA. induction k as [|k IH]; intros i; cbn [instances]; [exact I|]. apply defined_bind; [now apply (Instance_def sec A0 A1)|]. intros [[v c] t] _.
  apply defined_bind; [apply IH|]. intros l _. exact I.
Qed.
Lemma Pack_Response_def A0 A1 v A2 A3 lft bot lr fb c w old tp : SS A0 -> SS A1 -> instok A0 A1 v A2 A3 lft bot lr fb -> In w [-1; 0; 1]%Z -> digits 256 tp ->
  defined (Pack_Response K O w v c old tp).
Proof.
  intros HA0 HA1 Hok Hw D. destruct Hok as [Q1 Q2 Q3 Q4 Q5 Q6 Q7 Q8 Q9 Q10 Q11 Q12 Q13 Q14 Q15].
  pose proof (raw3_ss F two SS HSS (e3 P) None A0 lft A2 Q1 HA0) as [HA2 Sl]. pose proof (raw3_ss F two SS HSS (e3 P) None A1 lr A3 Q5 HA1) as [HA3 Sr].
  unfold Pack_Response, RESP_LEFT, RESP_BOTTOM, RESP_RIGHT. destruct Hw as [<-|[<-|[<-|[]]]]; cbn [Z.eqb].
  - destruct (pack_B_yes lft Sl _ Q7) as (xs & ->). exact I.
  - destruct (pack_curve_yes _ A2 Q10 HA2) as (a & ->). cbn [bind].
    apply defined_bind; [exact (pack_A_def bot (raw2_SS F two SS HSS other Hot Hor (e2 P) He2 _ _ _ _ _ Q3 HA2) (raw2_ord F unit sqrt lt enc dec rnd K _ _ _ _ _ Q3) _ tp Q8 D)|].
    intros [xs t] _. exact I.
  - destruct (pack_B_yes lr Sr _ Q9) as (xs & ->). exact I.
Qed.
Lemma responses_def0 A0 A1 olds tps : SS A0 -> SS A1 -> (forall i, digits 256 (tps i)) -> forall l i,
  (forall w v c, In (w, (v, c)) l -> In w [-1; 0; 1]%Z /\ exists A2 A3 lft bot lr fb, instok A0 A1 v A2 A3 lft bot lr fb) -> defined (pack_responses K O l olds tps i).
Proof.
  intros HA0 HA1 D. induction l as [|[w [v c]] l IH]; intros i Hl; cbn [pack_responses]; [exact I|].
  destruct (Hl w v c (or_introl eq_refl)) as (Hw & A2 & A3 & lft & bot & lr & fb & Hok).
  apply defined_bind; [exact (Pack_Response_def A0 A1 v A2 A3 lft bot lr fb c w _ _ HA0 HA1 Hok Hw (D i))|]. intros [r t] _.
  apply defined_bind; [apply IH; intros w' v' c' Hin; apply (Hl w' v' c'); now right|]. intros rs _. exact I.
Qed.
Hypothesis dec_enc : forall x, dec (enc x) = x.
Hypothesis enc_len : forall x, length (enc x) = sidh_bytes K.
Hypothesis enc_dig : forall x, digits 256 (enc x).
Hypothesis rnd_rest : forall tp x tp', rnd tp = Ok (x, tp') -> rest_of tp' tp.
Variable junk : pt O.
Hypothesis accept_ss : forall a tp tp', check_packed K O junk a tp = Ok (true, tp') -> SS (dec a).
Lemma Generate_def a tp : defined (Generate K O junk a tp).
Proof.
  unfold Generate. apply defined_bind; [exact (packed_def F unit sqrt lt enc dec rnd K junk rand_short rand_def a tp)|]. intros [[|] t1] EC; [|exact I].
  pose proof (accept_ss _ _ _ EC) as HA. unfold Random_Isogeny_Chain_A.
  pose proof (chain_A_def (width K) (unpack_curve O a) (dec a) true t1 (unpack_relC F unit sqrt lt enc dec rnd a) HA) as D.
  destruct (random_chain_A K O (width K) true (unpack_curve O a) t1) as [[[Es Ps] t2]| | | |]; cbn [bind]; try exact D; exact I.
Qed.
Lemma Prove_safe fuel sec A0 A1 olds tps tps2 : (0 < width K)%nat -> (0 < height K)%nat -> secret_rel sec A0 A1 -> SS A0 -> (forall i, digits 256 (tps2 i)) ->
  safe_run K fuel (Prove K O fuel sec olds tps tps2).
Proof.
  intros Hw Hh Hs HA D2. pose proof (secret_ss F unit sqrt lt enc dec rnd two sqrt_ok SS HSS K HS _ _ _ Hs HA) as HA1.
  destruct (secret_ends F unit sqrt lt enc dec rnd K _ _ _ Hs) as (E0 & E1 & _). unfold Prove. cbv zeta.
  apply safe_bind; [apply safe_of_defined; exact (instances_def sec A0 A1 tps (reps K) Hw Hh Hs HA 0%nat)|]. intros l EI. destruct (instances_nth K O sec tps _ _ _ EI) as [Ll HI].
  apply safe_bind; [apply Challenge_safe|]. intros ch EC.
  assert (Hch : Forall (fun t => In t [-1; 0; 1]%Z) ch).
  { match type of EC with Challenge _ _ ?c _ = _ => destruct (Challenge_cases K fuel c) as [(r & X & Hr)|X] end; rewrite EC in X; [|discriminate]. assert (ch = r) as -> by congruence. exact Hr. }
  pose proof (unpack_relC F unit sqrt lt enc dec rnd (nth 0 (sE sec) [])) as R0. pose proof (unpack_relC F unit sqrt lt enc dec rnd (nth (width K) (sE sec) [])) as R1. rewrite E0 in R0. rewrite E1 in R1.
  destruct (pack_curve_yes _ A0 R0 HA) as (a0 & ->). cbn [bind]. destruct (pack_curve_yes _ A1 R1 HA1) as (a1 & ->). cbn [bind].
  apply safe_bind; [apply safe_of_defined; apply (responses_def0 A0 A1); auto|intros rs _; exact I].
  intros w v c Hin. rewrite Forall_forall in Hch. split; [apply Hch; exact (in_combine_l _ _ _ _ Hin)|].
  apply in_combine_r in Hin. apply In_nth_error in Hin as (j & Hj). destruct (HI j v c Hj) as (t & Ei).
  exact (Instance_ok F unit sqrt lt enc dec rnd two three sqrt_ok lt_irr lt_trans lt_total SS HSS K HS dec_enc enc_len enc_dig rnd_rest junk accept_ss sec A0 A1 _ v c t Hs HA Ei).
Qed.
End PP.
