(** What an honest prover computes over a field, and that the verifier does not refuse it. *)
From Coq Require Import Field.
From Verif Require Import Base BaseP Digits DigitsP Out Params Fp Poik Keccak Hashing HashSpec HashingP ParamP SpongeP Codec CodecSpec Ops Ec Models Proto Fld FieldOps CurveSpec IsogSpec ModelSpec XSpec ProtoSpec WalkSpec FldCurve GroupP MultP IsoP FldIsog FldModels
  LadderP XLine XIso Strategy XChain CheckP XIsog WalkP SquareP KumP GridP BasisP IsoStepP IsoChainP OddP RawP ChainP OpenP HonestChainP TapeP PackP.
From Verif Require VerifyP.
Set Bullet Behavior "Strict Subproofs".

Lemma Forall2_last {X Y} (R : X -> Y -> Prop) a x b y : Forall2 R (a ++ [x]) (b ++ [y]) -> R x y.
Proof.
  revert b. induction a as [|a0 a IH]; intros [|b0 b] H; cbn [app] in H; inversion H; subst; auto.
  - destruct b; cbn [app] in *; match goal with H : Forall2 _ [] (_ :: _) |- _ => inversion H end.
  - destruct a; cbn [app] in *; match goal with H : Forall2 _ (_ :: _) [] |- _ => inversion H end.
  - eauto.
Qed.

Lemma combine_trunc {X Y} (a : list X) (b : list Y) c : length a = length b -> combine (a ++ c) b = combine a b.
Proof. revert b. induction a as [|x a IH]; intros [|y b] L; cbn in *; try discriminate; [destruct c; reflexivity|]. f_equal. apply IH. lia. Qed.
Lemma F2_length {X Y} (R : X -> Y -> Prop) a b : Forall2 R a b -> length a = length b.
Proof. induction 1; cbn; lia. Qed.

Section Lists.
Variables (K : pok) (O : fops).
Lemma instances_nth sec tps k : forall i l, instances K O sec tps i k = Ok l -> length l = k /\
  forall j v c, nth_error l j = Some (v, c) -> exists t, Instance K O sec (tps (i + j)%nat) = Ok (v, c, t).
Proof.
  induction k as [|k IH]; intros i l; cbn [instances].
  - intros E. assert (l = []) as -> by congruence. split; [reflexivity|]. intros [|j]; discriminate.
  - destruct (Instance K O sec (tps i)) as [[[v c] t]| | | |] eqn:EI; cbn [bind]; try discriminate.
    destruct (instances K O sec tps (S i) k) as [l'| | | |] eqn:EL; cbn [bind]; try discriminate. intros E. assert (l = (v, c) :: l') as -> by congruence.
    destruct (IH _ _ EL) as [L H]. split; [cbn; lia|]. intros [|j] v0 c0 Hj; cbn [nth_error] in Hj.
    + assert (v0 = v) as -> by congruence. assert (c0 = c) as -> by congruence. rewrite Nat.add_0_r. eauto.
    + replace (i + S j)%nat with (S i + j)%nat by lia. now apply H.
Qed.
Lemma pack_nth olds tps l : forall i rs, pack_responses K O l olds tps i = Ok rs -> length rs = length l /\
  forall j r, nth_error rs j = Some r -> exists w v c t, nth_error l j = Some (w, (v, c)) /\ Pack_Response K O w v c (olds (i + j)%nat) (tps (i + j)%nat) = Ok (r, t).
Proof.
  induction l as [|[w [v c]] l IH]; intros i rs; cbn [pack_responses].
  - intros E. assert (rs = []) as -> by congruence. split; [reflexivity|]. intros [|j]; discriminate.
  - destruct (Pack_Response K O w v c (olds i) (tps i)) as [[r t]| | | |] eqn:EI; cbn [bind]; try discriminate.
    destruct (pack_responses K O l olds tps (S i)) as [l'| | | |] eqn:EL; cbn [bind]; try discriminate. intros E. assert (rs = r :: l') as -> by congruence.
    destruct (IH _ _ EL) as [L H]. split; [cbn; lia|]. intros [|j] r0 Hj; cbn [nth_error] in Hj.
    + assert (r0 = r) as -> by congruence. rewrite Nat.add_0_r. cbn. eauto 6.
    + replace (i + S j)%nat with (S i + j)%nat by lia. now apply H.
Qed.
Lemma unpack_checked junk prf r tp o t : Unpack_Response K O junk prf r tp = Ok (o, t) -> int8 (r_tag r) = 0 -> exists b t1, check_packed K O junk (bottom_E2 K r) tp = Ok (b, t1).
Proof.
  unfold Unpack_Response. rewrite VerifyP.int8_eq. cbv zeta. intros EU Et. revert EU. rewrite Et.
  change (0 =? RESP_LEFT)%Z with false. change (0 =? RESP_BOTTOM)%Z with true. cbv iota.
  destruct (check_packed K O junk (bottom_E2 K r) tp) as [[ok t1]| | | |] eqn:EC; cbn [bind]; try discriminate. intros _. exists ok, t1. reflexivity.
Qed.
End Lists.
Lemma opens_pass {F : fld} canon other (enc : F -> list Z) dec K (pass pass' : list Z -> Prop) A0 A1 r h2 h3 :
  (int8 (r_tag r) = 0 -> pass (bottom_E2 K r) -> pass' (bottom_E2 K r)) -> opens canon other enc dec K pass A0 A1 r h2 h3 -> opens canon other enc dec K pass' A0 A1 r h2 h3.
Proof. intros H. unfold opens. destruct (int8 (r_tag r)) as [|[| |]|[| |]]; auto. intros [H1 H2]. auto. Qed.
Lemma nth_error_combine {X Y} (a : list X) (b : list Y) j x y : nth_error (combine a b) j = Some (x, y) -> nth_error a j = Some x /\ nth_error b j = Some y.
Proof.
  revert b j. induction a as [|a0 a IH]; intros [|b0 b] [|j] H; cbn in H |- *; try discriminate; [split; congruence|]. now apply IH.
Qed.
Lemma nth_error_ext' {X} (a b : list X) : length a = length b -> (forall j x, nth_error a j = Some x -> nth_error b j = Some x) -> a = b.
Proof.
  revert b. induction a as [|x a IH]; intros [|y b] L H; cbn in L; try discriminate; [reflexivity|]. pose proof (H 0%nat x eq_refl) as H0. cbn in H0.
  assert (y = x) as -> by congruence. f_equal. apply IH; [lia|]. intros j z Hj. exact (H (S j) z Hj).
Qed.
Lemma digits_concat B (xs : list (list Z)) : Forall (digits B) xs -> digits B (concat xs).
Proof. induction 1; cbn [concat]; [constructor|]. apply digits_app. auto. Qed.

Section HP.
Variable F : fld.
Variables (unit : F) (sqrt : F -> F) (lt : F -> F -> bool) (enc : F -> list Z) (dec : list Z -> F) (rnd : tape -> out (F * tape)).
Notation O := (fld_ops F unit sqrt lt enc dec rnd).
Hypothesis two : (kadd k1 k1 : F) <> k0.
Hypothesis three : (kadd k1 (kadd k1 k1) : F) <> k0.
Hypothesis unit_nz : unit <> k0.
Hypothesis sqrt_ok : forall x z : F, x = kmul z z -> kmul (sqrt x) (sqrt x) = x.
Hypothesis lt_irr : forall x, lt x x = false.
Hypothesis lt_trans : forall x y z, lt x y = true -> lt y z = true -> lt x z = true.
Hypothesis lt_total : forall x y, lt x y = false -> lt y x = false -> x = y.
Local Open Scope fld_scope.
Definition kth21 := kth F.
Add Field KF21 : kth21.
Notation repp := (repp F unit sqrt lt enc dec rnd).
Notation other := (other_model F unit sqrt lt enc dec rnd).
Notation canon := (canon_model F unit sqrt lt enc dec rnd).
Variable SS : F -> Prop.
Hypothesis HSS : isog_class SS.
Notation ns := (ss_ns F SS HSS).
Variable K : pok.
Notation P := (fpar K).
Hypothesis HS : strat_good P.
Notation Hot := (other_isos F unit sqrt lt enc dec rnd two sqrt_ok SS HSS).
Notation Hor := (other_r F unit sqrt lt enc dec rnd two sqrt_ok SS HSS).
Lemma He2 : (2 <= e2 P)%nat. Proof. destruct HS as (H & _). clear - H. lia. Qed.
Lemma He3 : (1 <= e3 P)%nat. Proof. destruct HS as (_ & H & _). clear - H. lia. Qed.
Notation raw2 := (raw2 F other (e2 P)). Notation raw3 := (raw3 F (e3 P)).
Notation relC := (relC F unit sqrt lt enc dec rnd). Notation relL := (relL F unit sqrt lt enc dec rnd).
Notation ord3 := (ord3 F).
Notation isoc := (isoc F canon). Notation cB A := (fst (fst (canon A))).
Notation special := (special F).
Notation xpt := (xpt F dec).
Notation packed2 := (packed2 F canon).
Hypothesis dec_enc : forall x, dec (enc x) = x.
Hypothesis enc_len : forall x, length (enc x) = sidh_bytes K.
Hypothesis enc_dig : forall x, digits 256 (enc x).
Hypothesis Hw2 : (2 <= radix P)%Z.
Hypothesis Hw8 : (radix P mod 8 = 0)%Z.
Hypothesis rnd_rest : forall tp x tp', rnd tp = Ok (x, tp') -> rest_of tp' tp.

(** ** Packing *)
Notation Hcan := (canon_isos F unit sqrt lt enc dec rnd two sqrt_ok lt_irr lt_trans lt_total SS HSS).
Lemma Hsame (A B r u : F) : SS A -> iso_to A B r u -> cB B = cB A.
Proof.
  intros HA HI. assert (HB : SS B) by (apply (ss_iso HSS A B r u); auto).
  destruct (canon_ok F unit sqrt lt enc dec rnd two sqrt_ok lt_irr lt_trans lt_total A (ss_full4 HSS A HA)) as (m & _ & E1 & _ & L1).
  destruct (canon_ok F unit sqrt lt enc dec rnd two sqrt_ok lt_irr lt_trans lt_total B (ss_full4 HSS B HB)) as (m' & _ & E2 & _ & L2).
  rewrite E1, E2. cbn [fst]. apply (least_unique F lt lt_total B); auto. apply (FldModels.least_iso F lt A); auto. exists r, u. exact HI.
Qed.
Lemma cB_iso (A : F) : SS A -> exists r u, iso_to A (cB A) r u.
Proof. intros HA. pose proof (Hcan A HA) as H. destruct (canon A) as [[B r] u]. exists r, u. exact H. Qed.
Lemma cB_ss (A : F) : SS A -> SS (cB A).
Proof. intros HA. destruct (cB_iso A HA) as (r & u & H). exact (ss_iso HSS A _ r u HA H). Qed.
Lemma cB_j (A : F) : SS A -> jinv (cB A) 1 = jinv A 1.
Proof. intros HA. destruct (cB_iso A HA) as (r & u & H). symmetry. apply (iso_j F A _ r u); auto; apply ns; auto using cB_ss. Qed.
Lemma fp2div_rep (R : pt O) (y : F) : repp R (XF y) -> fp2div O (pX R) (pZ R) = y.
Proof.
  intros [H1 H2]. unfold fp2div. cbn [fld_ops o_mul o_inv]. cbn in H2. rewrite H2. change (@eq (Fld.K F) (y * pZ R * kinv (pZ R)) y). field. exact H1.
Qed.
Lemma pack_curve_ok E (A : F) a : relC E A -> SS A -> pack_curve O E = Ok a -> a = enc (cB A).
Proof.
  intros [HC HE] HA. unfold pack_curve. rewrite (canonical_coef F unit sqrt lt enc dec rnd E A HC HE).
  destruct (canon_ok F unit sqrt lt enc dec rnd two sqrt_ok lt_irr lt_trans lt_total A (ss_full4 HSS A HA)) as (m & E1 & E2 & HI & _).
  rewrite E1. cbn [bind]. intros H. rewrite E2. cbn [fst]. cbn [fld_ops o_enc] in H. congruence.
Qed.
Lemma isox_fin (r u : F) q : q <> XInf -> exists y, isox r u q = XF y.
Proof. destruct q as [|x]; [contradiction|]. intros _. cbn. eauto. Qed.
Lemma pack_point_ok E (A : F) R q x : relC E A -> SS A -> repp R q -> q <> XInf -> pack_point O E R = Ok x -> xpt x = isoc A q /\ length x = sidh_bytes K /\ digits 256 x.
Proof.
  intros [HC HE] HA HR Hq. unfold pack_point. rewrite (canonical_coef F unit sqrt lt enc dec rnd E A HC HE).
  destruct (canon_ok F unit sqrt lt enc dec rnd two sqrt_ok lt_irr lt_trans lt_total A (ss_full4 HSS A HA)) as (m & E1 & E2 & HI & _).
  rewrite E1. cbn [bind]. intros H.
  pose proof (evaliso_rep F unit sqrt lt enc dec rnd A (iB m) (ir m) (iu2 m) HI m R q eq_refl eq_refl HR) as HQ.
  destruct (isox_fin (ir m) (iu2 m) q Hq) as (y & Ey). rewrite Ey in HQ. unfold fp2div_enc in H. rewrite (fp2div_rep _ y HQ) in H. cbn [fld_ops o_enc] in H.
  assert (x = enc y) as -> by congruence. unfold ChainP.xpt, RawP.isoc. rewrite dec_enc, E2, Ey. auto.
Qed.
Definition relP (e : curve O * pt O) (x : F * xl F) : Prop := relC (fst e) (fst x) /\ repp (snd e) (snd x).
Lemma relL_pairs Es Ps l X : relL Es Ps l -> Forall2 relP (combine (Es ++ X) Ps) l.
Proof.
  revert Es Ps. induction l as [|[A q] l IH]; intros Es Ps [H1 H2]; cbn [map fst snd] in *.
  - inversion H2; subst. destruct (Es ++ X); constructor.
  - inversion H1; subst. inversion H2; subst. cbn [app combine]. constructor; [split; auto|]. apply IH. split; auto.
Qed.
Lemma pack_B_ok l : Forall (fun x => SS (fst x)) l -> Forall (fun x => snd x <> XInf) l -> forall ps xs, Forall2 relP ps l -> Pack_Chain_B O ps = Ok xs ->
  map xpt xs = map (fun x => isoc (fst x) (snd x)) l /\ Forall (fun x => length x = sidh_bytes K) xs /\ Forall (digits 256) xs.
Proof.
  induction l as [|[A q] l IH]; intros H1 H2 ps xs HR.
  - inversion HR; subst. cbn [Pack_Chain_B]. intros E. assert (xs = []) as -> by congruence. cbn. auto.
  - inversion HR as [|[E R] x0 ps' l0 [HE HQ] HR' E1 E2]; subst x0 l0 ps. cbn [fst snd] in *. inversion H1; subst. inversion H2; subst. cbn [fst snd] in *.
    cbn [Pack_Chain_B]. destruct (pack_point O E R) as [x| | | |] eqn:EP; cbn [bind]; try discriminate.
    destruct (Pack_Chain_B O ps') as [xs'| | | |] eqn:EB; cbn [bind]; try discriminate. intros EE. assert (xs = x :: xs') as -> by congruence.
    destruct (pack_point_ok E A R q x HE) as (G1 & G2 & G3); auto. destruct (IH H4 H6 ps' xs' HR' EB) as (K1 & K2 & K3).
    cbn [map fst snd]. rewrite G1, K1. auto.
Qed.
Lemma xord2_fin (A : F) q : xord2 A (e2 P) q -> q <> XInf /\ q <> XF 0.
Proof.
  intros [_ H]. pose proof He2 as H2. split; intros ->.
  - apply (H 0%nat); [lia|reflexivity].
  - apply (H 1%nat); [lia|]. cbn [Nat.iter nat_rect]. apply (WalkP.zero_two F).
Qed.
Lemma odd_mod v e : (1 <= e)%nat -> (0 <= v)%Z -> Z.odd v = true -> exists j, Z.to_nat (v mod 2 ^ Z.of_nat e) = (2 * j + 1)%nat.
Proof.
  intros He Hv Ho. set (m := (v mod 2 ^ Z.of_nat e)%Z). assert (Hm : (0 <= m)%Z) by (apply Z.mod_pos_bound; apply Z.pow_pos_nonneg; lia).
  assert (Om : Z.odd m = true).
  { unfold m. rewrite Zmod_eq_full by (apply Z.pow_nonzero; lia). rewrite Z.odd_sub, Ho, Z.odd_mul.
    replace (Z.of_nat e) with (1 + Z.of_nat (e - 1))%Z by lia. rewrite Z.pow_add_r, Z.odd_mul by lia. change (Z.odd (2 ^ 1)) with false. cbn. now rewrite andb_false_r. }
  apply Z.odd_spec in Om as (k & Ek). exists (Z.to_nat k). lia.
Qed.
Lemma pack_A_ok l : Forall (fun x => SS (fst x)) l -> Forall (fun x => xord2 (fst x) (e2 P) (snd x)) l -> forall ps tp xs tp', Forall2 relP ps l -> digits 256 tp ->
  Pack_Chain_A K O ps tp = Ok (xs, tp') ->
  Forall2 packed2 l (map xpt xs) /\ Forall (fun x => length x = sidh_bytes K) xs /\ Forall (digits 256) xs.
Proof.
  induction l as [|[A q] l IH]; intros H1 H2 ps tp xs tp' HR D.
  - inversion HR; subst. cbn [Pack_Chain_A]. intros E. assert (xs = []) as -> by congruence. cbn. auto.
  - inversion HR as [|[E R] x0 ps' l0 [HE HQ] HR' E1 E2]; subst x0 l0 ps. cbn [fst snd] in *.
    inversion H1 as [|? ? HA H1']; subst. inversion H2 as [|? ? Ho H2']; subst. cbn [fst snd] in *.
    cbn [Pack_Chain_A]. destruct (random_odd_A K tp) as [[m t1]| | | |] eqn:ER; cbn [bind]; try discriminate.
    pose proof He2 as Hn. destruct (random_odd_ok K Hw2 Hw8 tp m t1 ltac:(lia) ER D) as (Rt & Dm & Lm & Om). cbv zeta. rewrite (div_relC F unit sqrt lt enc dec rnd E A HE).
    destruct (XLine.lift F A q) as (BB & M & NB & HM & EM). destruct (xord2_fin A q Ho) as [Nq N0].
    assert (XP : pX R <> 0 /\ pZ R <> 0).
    { destruct q as [|y]; [contradiction|]. destruct HQ as [Z1 Z2]. split; [|exact Z1]. rewrite Z2. intros X. apply N0. f_equal. apply (mul_cancel F y 0 (pZ R) Z1). change (@eq (Fld.K F) (y * pZ R) (0 * pZ R)). transitivity (0 : F); [exact X|ring]. }
    assert (HX : xzp F unit sqrt lt enc dec rnd R M). { apply (rep_xz F). rewrite EM. exact HQ. }
    destruct (Ladder_ok F unit sqrt lt enc dec rnd two A BB (ns _ HA) NB (radix P) m R M (e2 P) ltac:(lia) Dm Lm HM HX (proj1 XP) (proj2 XP)) as (Q & EL & HQ').
    rewrite EL. cbn [bind]. destruct (odd_mod (valB (2 ^ radix P) m) (e2 P) ltac:(lia)) as (j & Ej).
    { apply valB_bound in Dm; [apply Dm|]. apply Z.pow_pos_nonneg; lia. }
    { exact Om. }
    rewrite Ej in HQ'. apply (rep_xz F) in HQ'.
    assert (Ho' : xord2 A (e2 P) (xof (pmul A BB (2 * j + 1) M))). { apply (odd_ord F two j SS HSS other Hor (e2 P) He2 A BB M HA NB HM). now rewrite EM. }
    destruct (pack_point O E Q) as [x| | | |] eqn:EP; cbn [bind]; try discriminate.
    destruct (pack_point_ok E A Q _ x HE HA HQ' (proj1 (xord2_fin A _ Ho')) EP) as (G1 & G2 & G3).
    destruct (Pack_Chain_A K O ps' t1) as [[xs' t2]| | | |] eqn:EB; cbn [bind]; try discriminate. intros EE. assert (xs = x :: xs') as -> by congruence.
    destruct (IH H1' H2' ps' t1 xs' t2 HR' (rest_digits _ _ Rt D) EB) as (K1 & K2 & K3).
    cbn [map fst snd]. split; [|auto]. constructor; [|exact K1]. exists BB, M, j. cbn [fst snd]. auto.
Qed.

(** ** The secret *)
Definition secret_rel (sec : secret) (A0 A1 : F) : Prop :=
  exists l f, raw2 false A0 l A1 f /\ length l = width K /\ map dec (sE sec) = map fst l ++ [A1] /\ map xpt (sP sec) = map snd l.
Lemma unpack_relC a : relC (unpack_curve O a) (dec a).
Proof. split; cbn; [apply (one_nz F)|]. change (@eq (Fld.K F) (dec a) (dec a * 1)). ring. Qed.
Lemma relC_enc Es l : Forall2 relC Es l -> map (fun E => dec (fp2div_enc O (cA E) (cC E))) Es = l.
Proof. induction 1 as [|E A Es l H1 H IH]; [reflexivity|]. cbn [map]. rewrite IH. f_equal. unfold fp2div_enc. rewrite (div_relC F unit sqrt lt enc dec rnd E A H1). apply dec_enc. Qed.
Lemma raw2_ord b A l A'' f : raw2 b A l A'' f -> Forall (fun x => xord2 (fst x) (e2 P) (snd x)) l.
Proof. induction 1; constructor; auto. Qed.
Lemma raw3_ord o A l A'' : raw3 o A l A'' -> Forall (fun x => snd x <> XInf) l.
Proof.
  induction 1 as [o A|o A p Ap g d' l A'' Ho Nd Hc Hd H IH]; constructor; auto. cbn [snd]. apply (ord3_xord F (e3 P) He3) in Ho. destruct Ho as [_ Ho]. intros ->.
  apply (Ho 0%nat); [exact He3|reflexivity].
Qed.
Lemma raw3_last o A l A'' : raw3 o A l A'' -> SS A -> forall l0 a p, l = l0 ++ [(a, p)] -> SS a /\ ord3 (e3 P) a p /\ exists g, GridP.C3 F (e3 P) a p A'' g.
Proof.
  induction 1 as [o A|o A p Ap g d' l A'' Ho Nd Hc Hd H IH]; intros HA l0 a p0 El; [destruct l0; discriminate|].
  destruct l0 as [|x l0].
  - assert (l = []) as -> by (cbn in El; congruence). cbn [app] in El. assert (a = A) as -> by congruence. assert (p0 = p) as -> by congruence. inversion H; subst. eauto.
  - cbn [app] in El. apply (IH (C3_ss F two SS HSS (e3 P) A p Ap g HA Ho Hc) l0). congruence.
Qed.
Lemma points_enc Ps qs : Forall2 repp Ps qs -> Forall (fun q => q <> XInf) qs -> map (fun R => xpt (fp2div_enc O (pX R) (pZ R))) Ps = qs.
Proof.
  induction 1 as [|R q Ps qs H1 H IH]; intros Hn; [reflexivity|]. inversion Hn; subst. cbn [map]. rewrite IH by auto. f_equal.
  destruct q as [|y]; [contradiction|]. unfold fp2div_enc. rewrite (fp2div_rep R y H1). unfold ChainP.xpt. cbn [fld_ops o_enc]. now rewrite dec_enc.
Qed.
Variable junk : pt O.
Notation check := (check_packed K O junk).
Hypothesis accept_ss : forall a tp tp', check a tp = Ok (true, tp') -> SS (dec a).
Lemma Generate_ok a tp sec tp' : Generate K O junk a tp = Ok (Some sec, tp') -> SS (dec a) /\ exists A1, secret_rel sec (dec a) A1.
Proof.
  unfold Generate. destruct (check a tp) as [[ok t1]| | | |] eqn:EC; cbn [bind]; try discriminate. destruct ok; [|discriminate].
  pose proof (accept_ss _ _ _ EC) as HA. unfold Random_Isogeny_Chain_A.
  destruct (random_chain_A K O (width K) true (unpack_curve O a) t1) as [[[Es Ps] t2]| | | |] eqn:ER; cbn [bind]; try discriminate.
  destruct (chain_A_raw F unit sqrt lt enc dec rnd two unit_nz sqrt_ok lt_irr lt_trans lt_total SS HSS K HS _ _ _ _ _ _ _ _ (unpack_relC a) HA ER)
    as (l & A1 & f & E'' & Es0 & Hraw & Hl & -> & [HL1 HL2] & HE). cbn [chE chP negb] in *. intros EE.
  match type of EE with Ok (Some ?s, _) = _ => assert (sec = s) as -> by congruence end. clear EE. split; [auto|]. exists A1, l, f. split; [exact Hraw|]. split; [auto|]. cbn [sE sP].
  rewrite !map_map, map_app. cbn [map]. split.
  - rewrite (relC_enc Es0 _ HL1). f_equal. f_equal. unfold fp2div_enc. rewrite (div_relC F unit sqrt lt enc dec rnd E'' A1 HE). apply dec_enc.
  - apply (points_enc Ps _ HL2). apply Forall_map. eapply Forall_impl; [|exact (raw2_ord _ _ _ _ _ Hraw)]. cbv beta. intros x Hx. apply (xord2_fin (fst x)). exact Hx.
Qed.
Lemma raw2_head b A l A'' f : raw2 b A l A'' f -> exists t, map fst l ++ [A''] = A :: t.
Proof. destruct 1; cbn; eauto. Qed.
Lemma Forall2_firstn {X Y} (R : X -> Y -> Prop) n a b : Forall2 R a b -> Forall2 R (firstn n a) (firstn n b).
Proof. intros H. revert n. induction H; intros [|n]; cbn [firstn]; constructor; auto. Qed.
Lemma unpacks xs : Forall2 relC (map (unpack_curve O) xs) (map dec xs).
Proof. induction xs; constructor; auto using unpack_relC. Qed.
Lemma unpack_pts xs : Forall2 repp (map (unpack_point O) xs) (map xpt xs).
Proof. induction xs; constructor; auto. apply (unpack_rep F unit sqrt lt enc dec rnd). Qed.

(** ** One instance *)
Definition coefE (E : curve O) : F := cA E / cC E.
Definition interior (c : chain O) : list (curve O) := removelast (tl (chE O c)).
Definition generic (c : chain O) : Prop := Forall (fun E => ~ special (coefE E)) (interior c).
Record instok (A0 A1 : F) (v : inst O) (A2 A3 : F) (lft bot lr : list (F * xl F)) (fb : xl F -> xl F) : Prop := mkOk {
  ok_left : raw3 None A0 lft A2; ok_lenl : length lft = height K;
  ok_bot : raw2 false A2 bot A3 fb; ok_lenb : length bot = width K;
  ok_right : raw3 None A1 lr A3; ok_lenr : length lr = height K;
  ok_pl : Forall2 relP (pairs O (i_left O v)) lft; ok_pb : Forall2 relP (pairs O (i_bottom O v)) bot; ok_pr : Forall2 relP (pairs O (i_right O v)) lr;
  ok_E2 : relC (i_E2 O v) A2; ok_E3 : relC (i_E3 O v) A3;
  ok_h : height K <> 0%nat; ok_w : width K <> 0%nat;
  ok_il : map coefE (interior (i_left O v)) = map fst (tl lft); ok_ir : map coefE (interior (i_right O v)) = map fst (tl lr) }.
Lemma coefE_rel E A : relC E A -> coefE E = A.
Proof. intros [H1 H2]. unfold coefE. rewrite H2. change (@eq (Fld.K F) (A * cC E / cC E) A). field. exact H1. Qed.
Lemma interior_rel Es E (l : list (F * xl F)) Ps : Forall2 relC Es (map fst l) -> l <> [] -> map coefE (interior (mkChain O (Es ++ [E]) Ps)) = map fst (tl l).
Proof.
  intros H Hl. destruct l as [|x l]; [contradiction|]. cbn [map tl] in H |- *. inversion H as [|E1 a Es' l' H1 H2 E1' E2']; subst. unfold interior. cbn [chE app tl].
  rewrite removelast_last. set (l2 := map fst l) in *. clearbody l2. clear - H2. induction H2 as [|E0 A0 Es0 l0 H H' IH]; [reflexivity|]. cbn [map]. rewrite IH, (coefE_rel E0 A0 H). reflexivity.
Qed.
Lemma rev_last {X} (l : list X) x t : rev l = x :: t -> l = rev t ++ [x].
Proof. intros H. rewrite <- (rev_involutive l), H. reflexivity. Qed.
Lemma Instance_ok sec A0 A1 tp v c tp' : secret_rel sec A0 A1 -> SS A0 -> Instance K O sec tp = Ok (v, c, tp') ->
  exists A2 A3 lft bot lr fb, instok A0 A1 v A2 A3 lft bot lr fb.
Proof.
  intros (l & f & Hraw & Ll & HE & HP) HA. unfold Instance. cbv zeta.
  pose proof (unpacks (sE sec)) as HU. pose proof (unpack_pts (sP sec)) as HUP. rewrite HE in HU. rewrite HP in HUP.
  destruct (raw2_head _ _ _ _ _ Hraw) as (t & Et).
  assert (HEl : Forall2 relC (firstn (width K) (map (unpack_curve O) (sE sec))) (map fst l)).
  { apply (Forall2_firstn relC (width K)) in HU. rewrite <- Ll, <- (map_length fst l), firstn_app, firstn_all, Nat.sub_diag, firstn_O, app_nil_r in HU. now rewrite <- Ll, <- (map_length fst l). }
  rewrite Et in HU. set (bE := map (unpack_curve O) (sE sec)) in *. clearbody bE. set (bP := map (unpack_point O) (sP sec)) in *. clearbody bP.
  inversion HU as [|E0 x0 bE' t' HE0 HU' E1 E2]; subst x0 t'. rewrite E1.
  unfold Random_Isogeny_Chain_B. destruct (random_chain_B K O (height K) None E0 tp) as [[[Es Ps] t1]| | | |] eqn:EC; cbn [bind]; try discriminate.
  destruct (chain_B_raw F unit sqrt lt enc dec rnd two sqrt_ok lt_irr lt_trans lt_total SS HSS K HS _ _ _ None None _ _ _ _ HE0 HA I EC) as (lft & A2 & E'' & Es0 & Hr3 & Lf & -> & HL & HE2).
  cbn [chE chP]. assert (LL : length Es0 = length Ps). { destruct HL as [H1 H2]. apply F2_length in H1, H2. rewrite map_length in *. congruence. }
  rewrite (combine_trunc Es0 Ps [E''] LL).
  destruct (square_rows K O (combine Es0 Ps) (firstn (width K) bE) bP) as [[[b1 b2] rgt]| | | |] eqn:ES; cbn [bind]; try discriminate.
  destruct (rows_ok F unit sqrt lt enc dec rnd two three sqrt_ok lt_irr lt_trans lt_total SS HSS K HS None A0 lft A2 Hr3 Es0 Ps l A1 f false _ bP b1 b2 rgt HA HL Hraw (conj HEl HUP) ltac:(discriminate) ES)
    as (bot & A3 & fb & lr & G1 & G2 & G3 & G4 & G5 & G6). cbn [option_map] in G4.
  pose proof (proj1 (raw2_facts F two SS HSS other Hot Hor (e2 P) He2 _ _ _ _ _ Hraw HA)) as HA1.
  destruct (rev b1) as [|El b1'] eqn:R1; [discriminate|]. destruct (rev b2) as [|Pl ?]; [discriminate|]. destruct (rev rgt) as [|[Er Pr] rgt'] eqn:RR; [discriminate|]. rewrite rev_app_distr. cbn [rev app].
  destruct (Isogeny_A O P El Pl None) as [a| | | |]; cbn [bind]; try discriminate.
  destruct (Isogeny_B O P Er Pr None false t1) as [[b t2]| | | |] eqn:EI; cbn [bind]; try discriminate.
  destruct a as [[Ea Qa]|]; [|discriminate]. destruct b as [[[Eb Qb] bk]|]; [|discriminate].
  destruct (take_bytes (hide_bytes K) t2) as [[r2 t3]| | | |]; cbn [bind]; try discriminate.
  destruct (take_bytes (hide_bytes K) t3) as [[r3 t4]| | | |]; cbn [bind]; try discriminate.
  intros EE. match type of EE with Ok (?s, _, _) = _ => assert (v = s) as -> by congruence end. clear EE.
  assert (X : exists l0 a p, lr = l0 ++ [(a, p)] /\ relC Er a /\ repp Pr p).
  { apply rev_last in RR. subst rgt. destruct G6 as [K1 K2]. rewrite !map_app in K1, K2. cbn [map fst snd] in K1, K2.
    assert (Ln : lr <> []). { intros ->. inversion K1 as [E0'|]. destruct (map fst (rev rgt')); discriminate. }
    destruct (exists_last Ln) as (lr0 & xx & Exx). rewrite Exx in *. destruct xx as [a p]. rewrite !map_app in K1, K2. cbn [map fst snd] in K1, K2. exists lr0, a, p. split; [reflexivity|].
    split.
    - apply Forall2_last in K1. exact K1.
    - apply Forall2_last in K2. exact K2. }
  destruct X as (lq & a & p & Elr & HEr & HPr).
  destruct (raw3_last _ _ _ _ G4 HA1 lq a p Elr) as (Ha & Hop & g & Hg).
  destruct (isoB F unit sqrt lt enc dec rnd two sqrt_ok lt_irr lt_trans lt_total SS HSS K HS Er a Pr p None XInf false t1 Eb Qb bk t2 HEr Ha HPr I EI) as (_ & A3' & g' & d & HC & _ & _ & HEb & _).
  destruct (C3_fun F K a p A3' g' A3 g HC Hg) as [-> _].
  assert (Nl : lft <> []). { intros ->. rewrite Elr in G5. cbn in G5. rewrite app_length in G5. cbn in G5. lia. }
  exists A2, A3, lft, bot, lr, fb. constructor; cbn [i_left i_bottom i_right i_E2 i_E3]; unfold pairs; cbn [chE chP]; auto.
  - congruence.
  - congruence.
  - now apply relL_pairs.
  - now apply relL_pairs.
  - now apply relL_pairs.
  - rewrite <- Lf. destruct lft; [contradiction|discriminate].
  - rewrite <- Ll, <- G2. destruct bot; [|discriminate]. destruct G3 as [K1 _]. inversion K1. subst b1. discriminate.
  - apply interior_rel; auto. apply HL.
  - apply interior_rel; [apply G6|]. rewrite Elr. destruct lq; discriminate.
Qed.

(** ** Responses *)
Notation opens := (opens canon other enc dec K).
Notation commit := (commit enc K).
Lemma hash_ok r (A : F) : digits 256 r -> digits 256 (commit r A) /\ length (commit r A) = hash_bytes K.
Proof.
  intros D. assert (X : digits 256 (hash_hiding_input r (enc (jinv A 1)))).
  { unfold hash_hiding_input, RO_COMMIT. apply digits_app. split; [constructor; [lia|constructor]|]. apply digits_app. auto. }
  destruct (shake256_ok (hash_bytes K) _ X) as (H1 & H2 & _). split; [exact H1|exact H2].
Qed.
Lemma commit_iso r (A B : F) : jinv A 1 = jinv B 1 -> commit r A = commit r B.
Proof. intros E. unfold WalkSpec.commit. now rewrite E. Qed.
Lemma generic_tl c (l : list (F * xl F)) : map coefE (interior c) = map fst (tl l) -> generic c -> Forall (fun x => ~ special (fst x)) (tl l).
Proof. intros E H. unfold generic in H. apply (Forall_map coefE (fun A => ~ special A)) in H. rewrite E in H. now apply (Forall_map fst (fun A => ~ special A)) in H. Qed.
Lemma walk3_of (A : F) l A'' : raw3 None A l A'' -> SS A -> length l = height K -> height K <> 0%nat -> Forall (fun x => ~ special (fst x)) (tl l) ->
  exists B'', walk3 canon (e3 P) (cB A) None (map (fun x => isoc (fst x) (snd x)) l) B'' /\ jinv B'' 1 = jinv A'' 1.
Proof.
  intros Hr HA Ll Nh Hs. assert (Nl : l <> []) by (intros ->; apply Nh; rewrite <- Ll; reflexivity).
  destruct (conv3 F two three SS HSS (e3 P) He3 canon Hcan Hsame None A l A'' Hr HA Nl Hs) as (B'' & r & u & HW & HI). exists B''. split; [exact HW|].
  destruct (raw3_ss F two SS HSS (e3 P) None A l A'' Hr HA) as [HA'' _]. symmetry. apply (iso_j F A'' B'' r u); [now apply ns|apply ns; exact (ss_iso HSS A'' B'' r u HA'' HI)|exact HI].
Qed.
Lemma Pack_Response_ok A0 A1 v A2 A3 lft bot lr fb c w old tp r tp' : SS A0 -> SS A1 -> instok A0 A1 v A2 A3 lft bot lr fb ->
  length (i_r2 _ v) = hide_bytes K -> length (i_r3 _ v) = hide_bytes K -> digits 256 (i_r2 _ v) -> digits 256 (i_r3 _ v) ->
  c = (commit (i_r2 _ v) A2, commit (i_r3 _ v) A3) ->
  digits 256 tp ->
  Pack_Response K O w v c old tp = Ok (r, tp') ->
  r_tag r = w /\ legal_tag w /\
  ((w = RESP_LEFT -> generic (i_left O v)) -> (w = RESP_RIGHT -> generic (i_right O v)) -> opens (fun a => SS (dec a)) (cB A0) (cB A1) r (fst c) (snd c)) /\
  (length old = union_size K -> digits 256 old -> wf_response K r).
Proof.
  intros HA0 HA1 Hok L2 L3 D2 D3 Ec Dt. destruct Hok as [Q1 Q2 Q3 Q4 Q5 Q6 Q7 Q8 Q9 Q10 Q11 Q12 Q13 Q14 Q15].
  destruct (hash_ok (i_r2 _ v) A2 D2) as [Dh2 Lh2]. destruct (hash_ok (i_r3 _ v) A3 D3) as [Dh3 Lh3]. rewrite Ec. cbn [fst snd]. clear Ec c.
  pose proof (raw3_ss F two SS HSS (e3 P) None A0 lft A2 Q1 HA0) as [HA2 Sl]. pose proof (raw3_ss F two SS HSS (e3 P) None A1 lr A3 Q5 HA1) as [HA3 Sr].
  unfold Pack_Response. cbn [fst snd]. destruct (Z.eqb_spec w RESP_LEFT) as [Ew|N1].
  - destruct (Pack_Chain_B O (pairs O (i_left O v))) as [xs| | | |] eqn:EP; cbn [bind]; try discriminate. intros EE.
    destruct (pack_B_ok lft Sl (raw3_ord _ _ _ _ Q1) _ xs Q7 EP) as (X1 & X2 & X3).
    assert (Lx : length xs = height K). { rewrite <- (map_length xpt), X1, map_length. exact Q2. }
    destruct (left_layout K w old (i_r2 _ v) (commit (i_r3 _ v) A3) xs L2 Lh3 X2 Lx) as (Y1 & Y2 & Y3).
    match type of EE with Ok (?s, _) = _ => assert (r = s) as -> by congruence end. clear EE. split; [reflexivity|]. split; [subst w; unfold legal_tag, RESP_LEFT, RESP_BOTTOM, RESP_RIGHT; auto|]. split.
    + intros Gl Gr. unfold WalkSpec.opens. cbn [r_tag]. assert (Ei : int8 w = (-1)%Z) by (rewrite Ew; reflexivity). rewrite Ei. cbv iota.
      destruct (walk3_of A0 lft A2 Q1 HA0 Q2 Q12 (generic_tl _ _ Q14 (Gl Ew))) as (B2 & HW & Ej). exists B2.
      rewrite <- (pts_left F dec K), Y3, X1, Y1, Y2. split; [exact HW|]. split; [|reflexivity]. apply commit_iso. now symmetry.
    + intros Lo Do. apply fill_wf; auto.
      * apply digits_app. split; auto. apply digits_app. split; auto. now apply digits_concat.
      * rewrite !app_length, L2, Lh3, (concat_uniform K (sidh_bytes K) xs X2), Lx. unfold union_size, active_size. cbn [Z.eqb]. clear. lia.
  - destruct (Z.eqb_spec w RESP_BOTTOM) as [Ew|N2].
    + destruct (pack_curve O (i_E2 O v)) as [a| | | |] eqn:EA; cbn [bind]; try discriminate. apply (pack_curve_ok _ A2 a Q10 HA2) in EA. subst a.
      destruct (Pack_Chain_A K O (pairs O (i_bottom O v)) tp) as [[xs t1]| | | |] eqn:EP; cbn [bind]; try discriminate. intros EE.
      destruct (pack_A_ok bot (raw2_SS F two SS HSS other Hot Hor (e2 P) He2 _ _ _ _ _ Q3 HA2) (raw2_ord _ _ _ _ _ Q3) _ tp xs t1 Q8 Dt EP) as (X1 & X2 & X3).
      assert (Lx : length xs = width K). { apply F2_length in X1. rewrite map_length in X1. congruence. }
      destruct (bottom_layout K w old (i_r2 _ v) (i_r3 _ v) (enc (cB A2)) xs L2 L3 (enc_len _) X2 Lx) as (Y1 & Y2 & Y3 & Y4).
      match type of EE with Ok (?s, _) = _ => assert (r = s) as -> by congruence end. clear EE. split; [reflexivity|]. split; [subst w; unfold legal_tag, RESP_LEFT, RESP_BOTTOM, RESP_RIGHT; auto|]. split.
      * intros Gl Gr. unfold WalkSpec.opens. cbn [r_tag]. assert (Ei : int8 w = 0%Z) by (rewrite Ew; reflexivity). rewrite Ei. cbv iota.
        rewrite <- (pts_bottom F dec K), Y4, Y3, Y1, Y2, dec_enc. split; [now apply cB_ss|]. exists A3. split; [|split; [|reflexivity]].
        -- apply (conv2 F two SS HSS canon Hcan other Hot Hor (e2 P) He2 false A2 bot A3 fb Q3 HA2); [|exact X1]. intros ->. apply Q13. rewrite <- Q4. reflexivity.
        -- apply commit_iso. symmetry. now apply cB_j.
      * intros Lo Do. apply fill_wf; auto.
        -- apply digits_app. split; auto. apply digits_app. split; auto. apply digits_app. split; auto. now apply digits_concat.
        -- rewrite !app_length, L2, L3, enc_len, (concat_uniform K (sidh_bytes K) xs X2), Lx. unfold union_size, active_size. cbn [Z.eqb]. clear. lia.
    + destruct (Z.eqb_spec w RESP_RIGHT) as [Ew|N3]; [|discriminate].
      destruct (Pack_Chain_B O (pairs O (i_right O v))) as [xs| | | |] eqn:EP; cbn [bind]; try discriminate. intros EE.
      destruct (pack_B_ok lr Sr (raw3_ord _ _ _ _ Q5) _ xs Q9 EP) as (X1 & X2 & X3).
      assert (Lx : length xs = height K). { rewrite <- (map_length xpt), X1, map_length. exact Q6. }
      destruct (right_layout K w old (commit (i_r2 _ v) A2) (i_r3 _ v) xs Lh2 L3 X2 Lx) as (Y1 & Y2 & Y3).
      match type of EE with Ok (?s, _) = _ => assert (r = s) as -> by congruence end. clear EE. split; [reflexivity|]. split; [subst w; unfold legal_tag, RESP_LEFT, RESP_BOTTOM, RESP_RIGHT; auto|]. split.
      * intros Gl Gr. unfold WalkSpec.opens. cbn [r_tag]. assert (Ei : int8 w = 1%Z) by (rewrite Ew; reflexivity). rewrite Ei. cbv iota.
        destruct (walk3_of A1 lr A3 Q5 HA1 Q6 Q12 (generic_tl _ _ Q15 (Gr Ew))) as (B3 & HW & Ej). exists B3.
        rewrite <- (pts_right F dec K), Y3, X1, Y1, Y2. split; [exact HW|]. split; [reflexivity|]. apply commit_iso. now symmetry.
      * intros Lo Do. apply fill_wf; auto.
        -- apply digits_app. split; auto. apply digits_app. split; auto. now apply digits_concat.
        -- rewrite !app_length, Lh2, L3, (concat_uniform K (sidh_bytes K) xs X2), Lx. unfold union_size, active_size. cbn [Z.eqb]. clear. lia.
Qed.

(** ** The proof *)
Lemma legal_int8 w : legal_tag w -> int8 w = w.
Proof. intros [->|[->| ->]]; reflexivity. Qed.
Lemma secret_ends sec A0 A1 : secret_rel sec A0 A1 -> dec (nth 0 (sE sec) []) = A0 /\ dec (nth (width K) (sE sec) []) = A1 /\ length (sE sec) = S (width K).
Proof.
  intros (l & f & Hraw & Ll & HE & _). assert (L : length (sE sec) = S (width K)).
  { rewrite <- (map_length dec), HE, app_length, map_length, Ll. cbn [length]. apply Nat.add_1_r. }
  split; [|split; [|exact L]].
  - rewrite <- (map_nth dec), HE. destruct (raw2_head _ _ _ _ _ Hraw) as (t & ->). reflexivity.
  - rewrite <- (map_nth dec), HE. rewrite app_nth2; rewrite map_length, Ll; [|apply Nat.le_refl]. rewrite Nat.sub_diag. reflexivity.
Qed.
Lemma secret_ss sec A0 A1 : secret_rel sec A0 A1 -> SS A0 -> SS A1.
Proof. intros (l & f & Hraw & _) HA. exact (proj1 (raw2_facts F two SS HSS other Hot Hor (e2 P) He2 _ _ _ _ _ Hraw HA)). Qed.
Lemma Instance_full sec A0 A1 tp v c t : secret_rel sec A0 A1 -> SS A0 -> digits 256 tp -> Instance K O sec tp = Ok (v, c, t) ->
  exists A2 A3 lft bot lr fb, instok A0 A1 v A2 A3 lft bot lr fb /\ SS A2 /\ SS A3 /\
    length (i_r2 _ v) = hide_bytes K /\ length (i_r3 _ v) = hide_bytes K /\ digits 256 (i_r2 _ v) /\ digits 256 (i_r3 _ v) /\
    c = (commit (i_r2 _ v) A2, commit (i_r3 _ v) A3).
Proof.
  intros Hs HA D EI. destruct (Instance_ok sec A0 A1 tp v c t Hs HA EI) as (A2 & A3 & lft & bot & lr & fb & Hok). exists A2, A3, lft, bot, lr, fb. split; [exact Hok|].
  pose proof (raw3_ss F two SS HSS (e3 P) None A0 lft A2 (ok_left _ _ _ _ _ _ _ _ _ Hok) HA) as [HA2 _].
  pose proof (raw3_ss F two SS HSS (e3 P) None A1 lr A3 (ok_right _ _ _ _ _ _ _ _ _ Hok) (secret_ss _ _ _ Hs HA)) as [HA3 _]. split; [exact HA2|]. split; [exact HA3|].
  destruct (Instance_bytes K O rnd_rest sec tp v c t EI D) as (B1 & B2 & B3 & B4 & B5). split; [exact B1|]. split; [exact B2|]. split; [exact B3|]. split; [exact B4|]. rewrite B5.
  destruct (ok_E2 _ _ _ _ _ _ _ _ _ Hok) as [C1 C2]. destruct (ok_E3 _ _ _ _ _ _ _ _ _ Hok) as [C3 C4].
  rewrite (enc_j_coef F unit sqrt lt enc dec rnd _ A2 C1 C2 (ns _ HA2)), (enc_j_coef F unit sqrt lt enc dec rnd _ A3 C3 C4 (ns _ HA3)). reflexivity.
Qed.
Lemma comm_digits j0 j1 (hs : list (list Z * list Z)) : digits 256 j0 -> digits 256 j1 -> Forall (fun h => digits 256 (fst h) /\ digits 256 (snd h)) hs -> digits 256 (challenge_input (mkComm j0 j1 hs)).
Proof.
  intros H0 H1 H. unfold challenge_input, comm_bytes, RO_CHALLENGE. cbn [c_j0 c_j1 c_hs]. apply digits_app. split; [constructor; [split; reflexivity || discriminate|constructor]|].
  apply digits_app. split; [auto|]. apply digits_app. split; [auto|]. induction H as [|h hs [D1 D2] H IH]; [constructor|]. cbn [flat_map]. apply digits_app. split; [|exact IH]. apply digits_app. auto.
Qed.
Definition all_generic (sec : secret) (tps : nat -> tape) : Prop :=
  forall i v c t, (i < reps K)%nat -> Instance K O sec (tps i) = Ok (v, c, t) -> generic (i_left O v) /\ generic (i_right O v).
Lemma Prove_ok fuel sec A0 A1 olds tps tps2 prf : secret_rel sec A0 A1 -> SS A0 -> (forall i, digits 256 (tps i)) -> (forall i, digits 256 (tps2 i)) ->
  Prove K O fuel sec olds tps tps2 = Ok prf ->
  p_E0 prf = enc (cB A0) /\ p_E1 prf = enc (cB A1) /\ length (p_resp prf) = reps K /\ legal_tags prf /\
  ((forall i, length (olds i) = union_size K /\ digits 256 (olds i)) -> wf_proof K prf) /\
  exists hs, length hs = reps K /\ Challenge K fuel (mkComm (enc (jinv A0 1)) (enc (jinv A1 1)) hs) (repeat 0%Z (reps K)) = Ok (map r_tag (p_resp prf)) /\
    digits 256 (challenge_input (mkComm (enc (jinv A0 1)) (enc (jinv A1 1)) hs)) /\
    (all_generic sec tps -> forall j r, nth_error (p_resp prf) j = Some r -> exists h2 h3, nth_error hs j = Some (h2, h3) /\
       opens (fun a => SS (dec a)) (cB A0) (cB A1) r h2 h3).
Proof.
  intros Hs HA D1 D2. pose proof (secret_ss _ _ _ Hs HA) as HA1. destruct (secret_ends _ _ _ Hs) as (E0 & E1 & _). unfold Prove. cbv zeta.
  destruct (instances K O sec tps 0 (reps K)) as [l| | | |] eqn:EI; cbn [bind]; try discriminate. destruct (instances_nth K O sec tps _ _ _ EI) as [Ll HI].
  rewrite !(enc_j_unpack F unit sqrt lt enc dec rnd SS HSS) by (rewrite ?E0, ?E1; auto). rewrite E0, E1.
  destruct (Challenge K fuel _ _) as [ch| | | |] eqn:EC; cbn [bind]; try discriminate.
  pose proof (unpack_relC (nth 0 (sE sec) [])) as R0. pose proof (unpack_relC (nth (width K) (sE sec) [])) as R1. rewrite E0 in R0. rewrite E1 in R1.
  destruct (pack_curve O (unpack_curve O (nth 0 (sE sec) []))) as [a0| | | |] eqn:P0; cbn [bind]; try discriminate. apply (pack_curve_ok _ A0 a0 R0 HA) in P0.
  destruct (pack_curve O (unpack_curve O (nth (width K) (sE sec) []))) as [a1| | | |] eqn:P1; cbn [bind]; try discriminate. apply (pack_curve_ok _ A1 a1 R1 HA1) in P1.
  destruct (pack_responses K O (combine ch l) olds tps2 0) as [rs| | | |] eqn:EP; cbn [bind]; try discriminate. destruct (pack_nth K O olds tps2 _ _ _ EP) as [Lr HR].
  intros EE. assert (prf = mkProof a0 a1 rs) as -> by congruence. clear EE. cbn [p_E0 p_E1 p_resp]. subst a0 a1.
  assert (HF : forall j v c, nth_error l j = Some (v, c) -> exists A2 A3 lft bot lr fb, instok A0 A1 v A2 A3 lft bot lr fb /\ SS A2 /\ SS A3 /\
    length (i_r2 _ v) = hide_bytes K /\ length (i_r3 _ v) = hide_bytes K /\ digits 256 (i_r2 _ v) /\ digits 256 (i_r3 _ v) /\
    c = (commit (i_r2 _ v) A2, commit (i_r3 _ v) A3)).
  { intros j v c Hj. destruct (HI j v c Hj) as (t & Ei). exact (Instance_full sec A0 A1 _ v c t Hs HA (D1 _) Ei). }
  assert (DC : digits 256 (challenge_input (mkComm (enc (jinv A0 1)) (enc (jinv A1 1)) (map snd l)))).
  { apply comm_digits; auto. apply Forall_forall. intros h Hh. apply in_map_iff in Hh as ([v c] & Eh & Hin). cbn [snd] in Eh. subst h.
    apply In_nth_error in Hin as (j & Hj). destruct (HF j v c Hj) as (A2 & A3 & lft & bot & lr & fb & _ & _ & _ & _ & _ & K3 & K4 & ->). cbn [fst snd]. split; apply hash_ok; auto. }
  assert (HL : length ch = reps K).
  { destruct (challenge_total K fuel _ (repeat 0%Z (reps K)) (repeat_length _ _) DC) as [X|(r & X & Lx & _)]; rewrite EC in X; [discriminate|]. assert (ch = r) as -> by congruence. exact Lx. }
  rewrite combine_length, HL, Ll, Nat.min_id in Lr.
  assert (HQ : forall j r, nth_error rs j = Some r -> exists w v c t A2 A3 lft bot lr fb, nth_error ch j = Some w /\ nth_error l j = Some (v, c) /\
     Instance K O sec (tps j) = Ok (v, c, t) /\ instok A0 A1 v A2 A3 lft bot lr fb /\ r_tag r = w /\ legal_tag w /\
     ((w = RESP_LEFT -> generic (i_left O v)) -> (w = RESP_RIGHT -> generic (i_right O v)) -> opens (fun a => SS (dec a)) (cB A0) (cB A1) r (fst c) (snd c)) /\
     (length (olds j) = union_size K -> digits 256 (olds j) -> wf_response K r)).
  { intros j r Hj. destruct (HR j r Hj) as (w & v & c & t & Hc & Ep). apply nth_error_combine in Hc as [Hc Hl]. destruct (HI j v c Hl) as (t' & Ei). cbn [Nat.add] in Ei, Ep.
    destruct (HF j v c Hl) as (A2 & A3 & lft & bot & lr & fb & Hok & HA2 & HA3 & K1 & K2 & K3 & K4 & K5).
    destruct (Pack_Response_ok A0 A1 v A2 A3 lft bot lr fb c w _ _ r t HA HA1 Hok K1 K2 K3 K4 K5 (D2 j) Ep) as (T1 & T2 & T3 & T4).
    exists w, v, c, t', A2, A3, lft, bot, lr, fb. split; [exact Hc|]. split; [exact Hl|]. split; [exact Ei|]. split; [exact Hok|]. split; [exact T1|]. split; [exact T2|]. split; [exact T3|exact T4]. }
  assert (ET : map r_tag rs = ch).
  { apply nth_error_ext'; [rewrite map_length; congruence|]. intros j x Hx. rewrite nth_error_map in Hx. destruct (nth_error rs j) as [r|] eqn:Er; [|discriminate].
    destruct (HQ j r Er) as (w & v & c & t & A2 & A3 & lft & bot & lr & fb & Hc & _ & _ & _ & Tg & _). cbn [option_map] in Hx. congruence. }
  split; [reflexivity|]. split; [reflexivity|]. split; [exact Lr|]. split; [|split].
  - unfold legal_tags. cbn [p_resp]. apply Forall_forall. intros r Hr. apply In_nth_error in Hr as (j & Hj).
    destruct (HQ j r Hj) as (w & v & c & t & A2 & A3 & lft & bot & lr & fb & _ & _ & _ & _ & Tg & Tl & _). rewrite Tg. exact Tl.
  - intros Ho. unfold wf_proof. cbn [p_E0 p_E1 p_resp]. split; [auto|]. split; [auto|]. split; [exact Lr|]. apply Forall_forall. intros r Hr. apply In_nth_error in Hr as (j & Hj).
    destruct (HQ j r Hj) as (w & v & c & t & A2 & A3 & lft & bot & lr & fb & _ & _ & _ & _ & _ & _ & _ & Tw). apply Tw; apply Ho.
  - exists (map snd l). split; [rewrite map_length; exact Ll|]. split; [rewrite ET; exact EC|]. split; [exact DC|]. intros HG j r Hj.
    destruct (HQ j r Hj) as (w & v & c & t & A2 & A3 & lft & bot & lr & fb & _ & Hl & Ei & _ & _ & _ & To & _). exists (fst c), (snd c). split.
    + rewrite nth_error_map, Hl. cbn [option_map snd]. destruct c; reflexivity.
    + assert (Hj' : (j < reps K)%nat). { rewrite <- Ll. apply nth_error_Some. rewrite Hl. discriminate. }
      destruct (HG j v c t Hj' Ei) as [G1 G2]. apply To; auto.
Qed.

(** ** The verifier *)
Hypothesis kill : forall (A : F) M, SS A -> on A 1 M -> pmul A 1 (2 ^ e2 P * 3 ^ e3 P) M = Inf.
Hypothesis enc_inj : forall x y, enc x = enc y -> x = y.
Lemma check_pass0 (E : curve O) tp t : SS (cA E) -> cC E = 1 -> Check_Curve O P junk E tp <> Ok (false, t).
Proof.
  intros HA EC. apply (check_complete F unit sqrt lt enc dec rnd two P (cA E) (ns _ HA) junk E tp t eq_refl EC). intros M HM. apply kill; assumption.
Qed.
Lemma check_pass a tp b t : SS (dec a) -> check a tp = Ok (b, t) -> b = true.
Proof.
  intros HA. unfold check_packed. pose proof (check_pass0 (unpack_curve O a) tp t HA eq_refl) as H. destruct (Check_Curve O P junk (unpack_curve O a) tp) as [[[|] t']| | | |]; intros E.
  - assert (b = true) as -> by congruence. reflexivity.
  - exfalso. apply H. congruence.
  - discriminate.
  - discriminate.
  - discriminate.
  - discriminate.
Qed.
Lemma unpack_pass prf r tp o t h2 h3 : SS (dec (p_E0 prf)) -> SS (dec (p_E1 prf)) -> Unpack_Response K O junk prf r tp = Ok (o, t) ->
  opens (fun a => SS (dec a)) (dec (p_E0 prf)) (dec (p_E1 prf)) r h2 h3 -> o = Some (h2, h3).
Proof.
  intros H0 H1 EU Ho. apply (Unpack_Response_ok F unit sqrt lt enc dec rnd two sqrt_ok lt_irr lt_trans lt_total enc_inj SS HSS K HS junk accept_ss prf r tp o t H0 H1 EU h2 h3).
  revert Ho. apply opens_pass. intros Et Hp. destruct (unpack_checked K O junk prf r tp o t EU Et) as (b & t1 & EC). pose proof (check_pass _ _ _ _ Hp EC) as Eb. exists t1. rewrite EC, Eb. reflexivity.
Qed.
Lemma responses_pass prf : SS (dec (p_E0 prf)) -> SS (dec (p_E1 prf)) -> forall rs tps i o hs, responses K O junk prf tps i rs = Ok o -> length hs = length rs ->
  (forall j r, nth_error rs j = Some r -> exists h2 h3, nth_error hs j = Some (h2, h3) /\ opens (fun a => SS (dec a)) (dec (p_E0 prf)) (dec (p_E1 prf)) r h2 h3) -> o = Some hs.
Proof.
  intros H0 H1. induction rs as [|r rs IH]; intros tps i o hs; cbn [responses].
  { intros E L _. destruct hs; [congruence|discriminate]. }
  destruct (Unpack_Response K O junk prf r (tps i)) as [[c t1]| | | |] eqn:EU; cbn [bind]; try discriminate. intros E L HO.
  destruct (HO 0%nat r eq_refl) as (h2 & h3 & Eh & Ho). rewrite (unpack_pass prf r (tps i) c t1 h2 h3 H0 H1 EU Ho) in E.
  destruct hs as [|h hs]; [discriminate|]. assert (h = (h2, h3)) as -> by (cbn [nth_error] in Eh; congruence).
  destruct (responses K O junk prf tps (S i) rs) as [cs| | | |] eqn:ER; cbn [bind] in E; try discriminate.
  rewrite (IH tps (S i) cs hs ER) in E; [congruence|cbn [length] in L; congruence|]. intros j s Hj. exact (HO (S j) s Hj).
Qed.
Theorem honest_accepted a tp0 sec t0 fuel olds tps tps2 prf fuel' tp tps3 b :
  Generate K O junk a tp0 = Ok (Some sec, t0) -> Prove K O fuel sec olds tps tps2 = Ok prf ->
  (forall i, digits 256 (tps i)) -> (forall i, digits 256 (tps2 i)) -> all_generic sec tps ->
  Verify K O junk fuel' prf tp tps3 = Ok b -> b = true.
Proof.
  intros EG EP D1 D2 HG. destruct (Generate_ok a tp0 sec t0 EG) as [HA (A1 & Hs)]. pose proof (secret_ss _ _ _ Hs HA) as HA1.
  destruct (Prove_ok fuel sec (dec a) A1 olds tps tps2 prf Hs HA D1 D2 EP) as (E0 & E1 & LR & LT & _ & hs & Lh & EC & DC & HO). specialize (HO HG).
  assert (S0 : SS (dec (p_E0 prf))) by (rewrite E0, dec_enc; now apply cB_ss). assert (S1 : SS (dec (p_E1 prf))) by (rewrite E1, dec_enc; now apply cB_ss).
  unfold Verify. destruct (check (p_E0 prf) tp) as [[ok0 t1]| | | |] eqn:C0; cbn [bind]; try discriminate. rewrite (check_pass _ _ _ _ S0 C0). cbn [negb].
  destruct (check (p_E1 prf) t1) as [[ok1 t2]| | | |] eqn:C1; cbn [bind]; try discriminate. rewrite (check_pass _ _ _ _ S1 C1). cbn [negb].
  destruct (responses K O junk prf tps3 0 (p_resp prf)) as [o| | | |] eqn:ER; cbn [bind]; try discriminate.
  rewrite (responses_pass prf S0 S1 _ _ _ o hs ER) by (rewrite ?E0, ?E1, ?dec_enc; auto; congruence). cbv zeta.
  rewrite !(enc_j_unpack F unit sqrt lt enc dec rnd SS HSS) by auto. rewrite E0, E1, !dec_enc, !cB_j by auto.
  destruct (Challenge K fuel' _ _) as [ch| | | |] eqn:EC'; cbn [bind]; try discriminate.
  assert (ch = map r_tag (p_resp prf)) as ->.
  { apply (challenge_thm K fuel') in EC' as [Q1 Q2]; [|apply repeat_length|exact DC]. rewrite Q2. symmetry. apply (challenge_prefix K fuel _ _ _ (fuel' * 136) (repeat_length _ _) DC EC). exact Q1. }
  assert (ET : map (fun r => to_int8 (r_tag r)) (p_resp prf) = map r_tag (p_resp prf)).
  { apply map_ext_in. intros r Hr. rewrite VerifyP.int8_eq. apply legal_int8. unfold legal_tags in LT. rewrite Forall_forall in LT. now apply LT. }
  rewrite ET. destruct (list_eq_dec Z.eq_dec _ _) as [|N]; [congruence|]. exfalso. now apply N.
Qed.
End HP.
