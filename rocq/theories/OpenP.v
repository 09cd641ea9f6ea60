(** Unpack_Response and Verify over a field. *)
From Coq Require Import Field.
From Verif Require Import Base Out Params Fp Poik Hashing HashSpec HashingP Codec Ops Ec Models Proto Fld FieldOps CurveSpec IsogSpec ModelSpec XSpec ProtoSpec WalkSpec FldCurve GroupP MultP IsoP FldIsog FldModels
  XLine XIso Strategy XChain CheckP XIsog WalkP ChainP VerifyP WordModels.
Set Bullet Behavior "Strict Subproofs".

Section OP.
Variable F : fld.
Variables (unit : F) (sqrt : F -> F) (lt : F -> F -> bool) (enc : F -> list Z) (dec : list Z -> F) (rnd : tape -> out (F * tape)).
Local Notation O := (fld_ops F unit sqrt lt enc dec rnd).
Hypothesis two : (kadd k1 k1 : F) <> k0.
Hypothesis sqrt_ok : forall x z : F, x = kmul z z -> kmul (sqrt x) (sqrt x) = x.
Hypothesis lt_irr : forall x, lt x x = false.
Hypothesis lt_trans : forall x y z, lt x y = true -> lt y z = true -> lt x z = true.
Hypothesis lt_total : forall x y, lt x y = false -> lt y x = false -> x = y.
Hypothesis enc_inj : forall x y, enc x = enc y -> x = y.
Local Open Scope fld_scope.
Definition kth12 := kth F.
Add Field KF12 : kth12.
Ltac toF_eq := match goal with |- ?a = ?b => change (@eq (K F) a b) end.
Notation other := (other_model F unit sqrt lt enc dec rnd).
Notation canon := (canon_model F unit sqrt lt enc dec rnd).
Variable SS : F -> Prop.
Hypothesis HSS : isog_class SS.
Variable K : pok.
Notation P := (fpar K).
Hypothesis HS : strat_good P.
Variable junk : pt O.
Notation check := (check_packed K O junk).
Hypothesis accept_ss : forall a tp tp', check a tp = Ok (true, tp') -> SS (dec a).
Notation opens := (opens canon other enc dec K).
Notation commit := (commit enc K).

Lemma enc_j_coef (E : curve O) (A : F) : cC E <> 0 -> cA E = A * cC E -> A * A <> 4 -> enc_j O E = enc (jinv A 1).
Proof.
  intros HC HE HA. assert (EA : A = cA E / cC E). { rewrite HE. toF_eq. field. exact HC. }
  rewrite EA in HA |- *. destruct (jinv_scale F (cA E) (cC E) HC HA) as [H1 H2]. rewrite <- H2.
  unfold enc_j. change (enc (j_inv O (cA E) (cC E)) = enc (jinv (cA E) (cC E))). f_equal. apply (j_inv_ok F unit sqrt lt enc dec rnd); auto.
Qed.
Lemma enc_j_unpack a : SS (dec a) -> enc_j O (unpack_curve O a) = enc (jinv (dec a) 1).
Proof.
  intros HA. apply enc_j_coef; cbn; [apply (one_nz F)|exact (CheckP.one_r F (dec a))|apply (ss_ns F SS HSS); auto].
Qed.
Lemma pts_left r : map (xpt F dec) (left_xs K r) = pts dec (left_x K r) (height K).
Proof. unfold left_xs, pts, xpt. apply map_map. Qed.
Lemma pts_bottom r : map (xpt F dec) (bottom_xs K r) = pts dec (bottom_x K r) (width K).
Proof. unfold bottom_xs, pts, xpt. apply map_map. Qed.
Lemma pts_right r : map (xpt F dec) (right_xs K r) = pts dec (right_x K r) (height K).
Proof. unfold right_xs, pts, xpt. apply map_map. Qed.

Lemma walk_det2 A d qs A' : walk2 canon other (e2 P) A d qs A' -> forall A'', walk2 canon other (e2 P) A d qs A'' -> A' = A''.
Proof.
  induction 1 as [A d q A' (_ & _ & H)|A d q A' B r u q' qs A'' (_ & _ & H) Hc HW IH]; intros X HX.
  - apply walk2_rest in HX as (Y & (_ & _ & HY) & HZ). cbn in HZ. congruence.
  - apply walk2_rest in HX as (Y & (_ & _ & HY) & HZ). rewrite H in HY. injection HY as <-. unfold rest2 in HZ. rewrite Hc in HZ. now apply IH.
Qed.
Lemma walk_det3 A d qs A' : walk3 canon (e3 P) A d qs A' -> forall A'', walk3 canon (e3 P) A d qs A'' -> A' = A''.
Proof.
  induction 1 as [A d q A' d' (_ & _ & H & _)|A d q A' d' B r u q' qs A'' (_ & _ & H & A1 & k & H1 & ->) Hc HW IH]; intros X HX.
  - apply walk3_rest in HX as (Y & dY & (_ & _ & HY & _) & HZ). cbn in HZ. congruence.
  - apply walk3_rest in HX as (Y & dY & (_ & _ & HY & A2 & k2 & H2 & ->) & HZ). rewrite H in HY. injection HY as <-. rewrite H1 in H2. injection H2 as _ <-.
    unfold rest3 in HZ. rewrite Hc in HZ. now apply IH.
Qed.
Lemma ok_fst {T U} (a a' : T) (b b' : U) : Ok (a, b) = Ok (a', b') -> a' = a.
Proof. congruence. Qed.
Lemma some_pair {T U} (a a' : T) (b b' : U) : Some (a, b) = Some (a', b') -> a' = a /\ b' = b.
Proof. intros E. split; congruence. Qed.
Lemma int8_cases t : int8 t = RESP_LEFT \/ int8 t = RESP_BOTTOM \/ int8 t = RESP_RIGHT \/ (int8 t <> -1 /\ int8 t <> 0 /\ int8 t <> 1)%Z.
Proof. unfold RESP_LEFT, RESP_BOTTOM, RESP_RIGHT. lia. Qed.

(** Both for the responses that are accepted and those that are not. *)
Lemma Unpack_Response_ok prf r tp o tp' : SS (dec (p_E0 prf)) -> SS (dec (p_E1 prf)) -> Unpack_Response K O junk prf r tp = Ok (o, tp') ->
  forall h2 h3, o = Some (h2, h3) <-> opens (fun a => exists t, check a tp = Ok (true, t)) (dec (p_E0 prf)) (dec (p_E1 prf)) r h2 h3.
Proof.
  intros H0 H1. unfold Unpack_Response, WalkSpec.opens. rewrite int8_eq. cbv zeta.
  destruct (int8_cases (r_tag r)) as [E|[E|[E|(N1 & N2 & N3)]]].
  - rewrite E. cbn [RESP_LEFT Z.eqb Pos.eqb Z.opp].
    change (RESP_LEFT =? RESP_LEFT)%Z with true. cbv iota.
    destruct (Unpack_Chain_B K O junk (p_E0 prf) (left_xs K r) tp) as [[oE t1]| | | |] eqn:EU; cbn [bind]; try discriminate.
    pose proof (Unpack_Chain_B_ok F unit sqrt lt enc dec rnd two sqrt_ok lt_irr lt_trans lt_total SS HSS K HS junk _ _ _ _ _ H0 EU) as HU. rewrite pts_left in HU.
    destruct oE as [E2|]; intros X; apply ok_fst in X; subst o; intros h2 h3.
    + destruct HU as (A' & HW & HA' & HC & HE). rewrite (enc_j_coef E2 A' HC HE (ss_ns F SS HSS A' HA')). split.
      * intros X. apply some_pair in X as [-> ->]. exists A'. auto.
      * intros (A2 & HW2 & -> & ->). rewrite (walk_det3 _ _ _ _ HW _ HW2). reflexivity.
    + split; [discriminate|]. intros (A2 & HW2 & _). exfalso. exact (HU _ HW2).
  - rewrite E. change (RESP_BOTTOM =? RESP_LEFT)%Z with false. change (RESP_BOTTOM =? RESP_BOTTOM)%Z with true. cbv iota. unfold RESP_BOTTOM.
    destruct (check_packed K O junk (bottom_E2 K r) tp) as [[ok t1]| | | |] eqn:EC; cbn [bind]; try discriminate.
    destruct ok.
    2:{ intros X. injection X as <- <-. intros h2 h3. split; [discriminate|]. intros ((t & D) & _). discriminate. }
    pose proof (accept_ss _ _ _ EC) as HA.
    destruct (Unpack_Chain_A K O junk (bottom_E2 K r) (bottom_xs K r) t1) as [[oE t2]| | | |] eqn:EU; cbn [bind]; try discriminate.
    pose proof (Unpack_Chain_A_ok F unit sqrt lt enc dec rnd two sqrt_ok lt_irr lt_trans lt_total SS HSS K HS junk _ _ _ _ _ HA EU) as HU. rewrite pts_bottom in HU.
    destruct oE as [E3|]; intros X; apply ok_fst in X; subst o; intros h2 h3.
    + destruct HU as (A' & HW & HA' & HC & HE). rewrite (enc_j_coef E3 A' HC HE (ss_ns F SS HSS A' HA')), (enc_j_unpack _ HA). split.
      * intros X. apply some_pair in X as [-> ->]. split; [eauto|]. exists A'. auto.
      * intros (_ & A2 & HW2 & -> & ->). rewrite (walk_det2 _ _ _ _ HW _ HW2). reflexivity.
    + split; [discriminate|]. intros (_ & A2 & HW2 & _). exfalso. exact (HU _ HW2).
  - rewrite E. change (RESP_RIGHT =? RESP_LEFT)%Z with false. change (RESP_RIGHT =? RESP_BOTTOM)%Z with false. change (RESP_RIGHT =? RESP_RIGHT)%Z with true. cbv iota. unfold RESP_RIGHT.
    destruct (Unpack_Chain_B K O junk (p_E1 prf) (right_xs K r) tp) as [[oE t1]| | | |] eqn:EU; cbn [bind]; try discriminate.
    pose proof (Unpack_Chain_B_ok F unit sqrt lt enc dec rnd two sqrt_ok lt_irr lt_trans lt_total SS HSS K HS junk _ _ _ _ _ H1 EU) as HU. rewrite pts_right in HU.
    destruct oE as [E2|]; intros X; apply ok_fst in X; subst o; intros h2 h3.
    + destruct HU as (A' & HW & HA' & HC & HE). rewrite (enc_j_coef E2 A' HC HE (ss_ns F SS HSS A' HA')). split.
      * intros X. apply some_pair in X as [-> ->]. exists A'. auto.
      * intros (A2 & HW2 & -> & ->). rewrite (walk_det3 _ _ _ _ HW _ HW2). reflexivity.
    + split; [discriminate|]. intros (A2 & HW2 & _). exfalso. exact (HU _ HW2).
  - assert (T1 : (int8 (r_tag r) =? RESP_LEFT)%Z = false) by (apply Z.eqb_neq; auto).
    assert (T2 : (int8 (r_tag r) =? RESP_BOTTOM)%Z = false) by (apply Z.eqb_neq; auto).
    assert (T3 : (int8 (r_tag r) =? RESP_RIGHT)%Z = false) by (apply Z.eqb_neq; auto).
    rewrite T1, T2, T3. intros X. injection X as <- <-. intros h2 h3. split; [discriminate|].
    destruct (int8 (r_tag r)) as [|[| |]|[| |]]; try contradiction; tauto.
Qed.
(** All responses of a proof. *)
Lemma responses_ok prf : SS (dec (p_E0 prf)) -> SS (dec (p_E1 prf)) -> forall rs tps i o, responses K O junk prf tps i rs = Ok o ->
  forall hs, o = Some hs <-> length hs = length rs /\
    forall j r, nth_error rs j = Some r -> exists h2 h3, nth_error hs j = Some (h2, h3) /\
      opens (fun a => exists t, check a (tps (i + j)%nat) = Ok (true, t)) (dec (p_E0 prf)) (dec (p_E1 prf)) r h2 h3.
Proof.
  intros H0 H1. induction rs as [|r rs IH]; intros tps i o; cbn [responses].
  { intros E. injection E as <-. intros hs. split.
    - intros E. injection E as <-. split; [reflexivity|]. intros [|j] r; discriminate.
    - intros [L _]. destruct hs; [reflexivity|discriminate]. }
  destruct (Unpack_Response K O junk prf r (tps i)) as [[c t1]| | | |] eqn:EU; cbn [bind]; try discriminate.
  pose proof (Unpack_Response_ok prf r (tps i) c t1 H0 H1 EU) as HU.
  destruct c as [[c2 c3]|].
  2:{ intros E. injection E as <-. intros hs. split; [discriminate|]. intros [_ H]. destruct (H 0%nat r eq_refl) as (h2 & h3 & _ & Ho).
      rewrite Nat.add_0_r in Ho. apply HU in Ho. discriminate. }
  destruct (responses K O junk prf tps (S i) rs) as [cs| | | |] eqn:ER; cbn [bind]; try discriminate.
  pose proof (IH tps (S i) cs ER) as HI. intros E. injection E as <-. intros hs. split.
  - intros E. destruct cs as [cs|]; [|discriminate]. injection E as <-. destruct (proj1 (HI cs) eq_refl) as [L G]. split; [cbn; lia|].
    intros [|j] s Hj.
    + injection Hj as <-. exists c2, c3. split; [reflexivity|]. rewrite Nat.add_0_r. now apply HU.
    + cbn [nth_error] in *. replace (i + S j)%nat with (S i + j)%nat by lia. now apply G.
  - intros [L G]. destruct hs as [|[h2 h3] hs]; [discriminate|].
    destruct (G 0%nat r eq_refl) as (x2 & x3 & E & Ho). injection E as <- <-. rewrite Nat.add_0_r in Ho. apply HU in Ho. injection Ho as -> ->.
    assert (E : cs = Some hs).
    { apply HI. split; [cbn in L; lia|]. intros j s Hj. replace (S i + j)%nat with (i + S j)%nat by lia. now apply (G (S j)). }
    now rewrite E.
Qed.
Theorem Verify_ok fuel prf tp tps b : Verify K O junk fuel prf tp tps = Ok b ->
  b = true <-> exists t1 t2 hs, check (p_E0 prf) tp = Ok (true, t1) /\ check (p_E1 prf) t1 = Ok (true, t2) /\
    length hs = length (p_resp prf) /\
    (forall i r, nth_error (p_resp prf) i = Some r -> exists h2 h3, nth_error hs i = Some (h2, h3) /\
       opens (fun a => exists t, check a (tps i) = Ok (true, t)) (dec (p_E0 prf)) (dec (p_E1 prf)) r h2 h3) /\
    Challenge K fuel (mkComm (enc (jinv (dec (p_E0 prf)) 1)) (enc (jinv (dec (p_E1 prf)) 1)) hs) (repeat 0%Z (reps K)) =
      Ok (map (fun r => int8 (r_tag r)) (p_resp prf)).
Proof.
  unfold Verify. destruct (check_packed K O junk (p_E0 prf) tp) as [[ok0 t1]| | | |] eqn:E0; cbn [bind]; try discriminate.
  destruct ok0; cbn [negb].
  2:{ intros E. injection E as <-. split; [discriminate|]. intros (t & t' & hs & D & _). discriminate. }
  destruct (check_packed K O junk (p_E1 prf) t1) as [[ok1 t2]| | | |] eqn:E1; cbn [bind]; try discriminate.
  destruct ok1; cbn [negb].
  2:{ intros E. injection E as <-. split; [discriminate|]. intros (t & t' & hs & D & D' & _). injection D as <-. rewrite E1 in D'. discriminate. }
  pose proof (accept_ss _ _ _ E0) as H0. pose proof (accept_ss _ _ _ E1) as H1.
  destruct (responses K O junk prf tps 0 (p_resp prf)) as [o| | | |] eqn:ER; cbn [bind]; try discriminate.
  pose proof (responses_ok prf H0 H1 _ _ _ _ ER) as HR. destruct o as [hs|].
  2:{ intros E. injection E as <-. split; [discriminate|]. intros (t & t' & hs & _ & _ & L & G & _). assert (D : None = Some hs) by (apply HR; auto). discriminate. }
  destruct (proj1 (HR hs) eq_refl) as [L G]. rewrite !enc_j_unpack by auto.
  assert (EM : map (fun r => to_int8 (r_tag r)) (p_resp prf) = map (fun r => int8 (r_tag r)) (p_resp prf)).
  { apply map_ext. intros r. apply int8_eq. }
  rewrite EM. clear EM.
  destruct (Challenge K fuel _ _) as [ch| | | |] eqn:EC; cbn [bind]; try discriminate. intros E.
  assert (Eb : b = true <-> ch = map (fun r => int8 (r_tag r)) (p_resp prf)).
  { injection E as <-. destruct (list_eq_dec Z.eq_dec ch _) as [D|D]; split; intros X; auto; try discriminate; contradiction. }
  clear E. rewrite Eb. clear Eb. split.
  - intros <-. exists t1, t2, hs. split; [auto|]. split; [auto|]. split; [auto|]. split; [exact G|exact EC].
  - intros (t & t' & hs' & _ & _ & L' & G' & EC'). assert (D : Some hs = Some hs') by (apply HR; auto). injection D as <-. rewrite EC in EC'. now injection EC' as ->.
Qed.

(** ** Three answers to one commitment *)
Lemma walk2_ss A d qs A' : walk2 canon other (e2 P) A d qs A' -> SS A -> SS A'.
Proof.
  pose proof HS as (He2 & _). assert (Q : forall A q A', SS A -> xord2 A (e2 P) q -> quot2 other (e2 P) A q XInf = Some (A', XInf) -> SS A').
  { intros B q B' HB Ho HQ. exact (quot2_ss F two SS HSS other (other_isos F unit sqrt lt enc dec rnd two sqrt_ok SS HSS) (other_r F unit sqrt lt enc dec rnd two sqrt_ok SS HSS) (e2 P) He2 B q _ B' _ HB Ho HQ). }
  induction 1 as [A d q A' (Ho & _ & H)|A d q A' B r u q' qs A'' (Ho & _ & H) Hc HW IH]; intros HA.
  - exact (Q _ _ _ HA Ho H).
  - apply IH. pose proof (Q _ _ _ HA Ho H) as HA'. pose proof (canon_isos F unit sqrt lt enc dec rnd two sqrt_ok lt_irr lt_trans lt_total SS HSS A' HA') as HI. rewrite Hc in HI. exact (ss_iso HSS A' B r u HA' HI).
Qed.
Lemma walk3_ss A d qs A' : walk3 canon (e3 P) A d qs A' -> SS A -> SS A'.
Proof.
  pose proof HS as (_ & He3 & _). assert (Q : forall A q A', SS A -> xord3 A (e3 P) q -> chain3 (e3 P) A q XInf = Some (A', XInf) -> SS A').
  { intros B q B' HB Ho HQ. refine (chain3_ss F two SS HSS (e3 P) B q XInf B' _ HB _ HQ). right. replace (e3 P) with (S (e3 P - 1)) by lia.
    now apply (xord3_ord F unit sqrt lt enc dec rnd sqrt_ok lt_irr lt_trans lt_total K HS). }
  induction 1 as [A d q A' d' (Ho & _ & H & _)|A d q A' d' B r u q' qs A'' (Ho & _ & H & _) Hc HW IH]; intros HA.
  - exact (Q _ _ _ HA Ho H).
  - apply IH. pose proof (Q _ _ _ HA Ho H) as HA'. pose proof (canon_isos F unit sqrt lt enc dec rnd two sqrt_ok lt_irr lt_trans lt_total SS HSS A' HA') as HI. rewrite Hc in HI. exact (ss_iso HSS A' B r u HA' HI).
Qed.
Lemma commit_eq r r' A A' : SS A -> SS A' -> commit r A = commit r' A' ->
  (exists v v', (r, v) <> (r', v') /\ hash_hiding K r v = hash_hiding K r' v') \/ isomorphic A A'.
Proof.
  intros HA HA' E. unfold WalkSpec.commit in E.
  destruct (list_eq_dec Z.eq_dec r r') as [->|N]; [|left; do 2 eexists; split; [|exact E]; congruence].
  destruct (list_eq_dec Z.eq_dec (enc (jinv A 1)) (enc (jinv A' 1))) as [Ej|N].
  - right. apply enc_inj in Ej. apply (j_isomorphic F two); auto; [now apply (ss_full4 HSS)|now apply (ss_ns F SS HSS)].
  - left. do 2 eexists. split; [|exact E]. congruence.
Qed.
Theorem special_sound A0 A1 rl rb rr (pass : list Z -> Prop) h2 h3 : SS A0 -> SS A1 -> (forall a, pass a -> SS (dec a)) ->
  int8 (r_tag rl) = (-1)%Z -> int8 (r_tag rb) = 0%Z -> int8 (r_tag rr) = 1%Z ->
  opens pass A0 A1 rl h2 h3 -> opens pass A0 A1 rb h2 h3 -> opens pass A0 A1 rr h2 h3 ->
  (exists r v r' v', In (r, r') [(left_r2 K rl, bottom_r2 K rb); (bottom_r3 K rb, right_r3 K rr)] /\ (r, v) <> (r', v') /\
     hash_hiding K r v = hash_hiding K r' v') \/ linked canon other K A0 A1.
Proof.
  intros H0 H1 Hpass El Eb Er. unfold WalkSpec.opens. rewrite El, Eb, Er.
  intros (A2 & W2 & L2 & L3) (Hp & A3 & W3 & B2 & B3) (A4 & W4 & R2 & R3). pose proof (Hpass _ Hp) as HB.
  pose proof (walk3_ss _ _ _ _ W2 H0) as S2. pose proof (walk2_ss _ _ _ _ W3 HB) as S3. pose proof (walk3_ss _ _ _ _ W4 H1) as S4.
  destruct (commit_eq _ _ A2 (dec (bottom_E2 K rb)) S2 HB (eq_trans (eq_sym L2) B2)) as [(v & v' & C1)|I1]; [left; do 4 eexists; split; [|exact C1]; cbn; auto|].
  destruct (commit_eq _ _ A3 A4 S3 S4 (eq_trans (eq_sym B3) R3)) as [(v & v' & C1)|I2]; [left; do 4 eexists; split; [|exact C1]; cbn; auto|].
  right. exists (pts dec (left_x K rl) (height K)), (pts dec (bottom_x K rb) (width K)), (pts dec (right_x K rr) (height K)), A2, (dec (bottom_E2 K rb)), A3, A4.
  unfold pts in *. rewrite !map_length, !seq_length. auto 10.
Qed.

(** ** No composition of a walk contains all points of order 2 (3) in its kernel *)
Lemma cyclic2 A d qs A' : walk2 canon other (e2 P) A d qs A' -> SS A -> forall q qs' s, qs = q :: qs' -> dblx A s = XInf -> s <> XInf ->
  s <> Nat.iter (e2 P - 1) (dblx A) q -> comp2 canon other (e2 P) A qs s = Some (A', XF 0).
Proof.
  pose proof HS as (He2 & _). pose proof (other_isos F unit sqrt lt enc dec rnd two sqrt_ok SS HSS) as HI1. pose proof (other_r F unit sqrt lt enc dec rnd two sqrt_ok SS HSS) as HI2.
  induction 1 as [A d q A' (Ho & _ & H)|A d q A' B r u q' qs A'' (Ho & _ & H) Hc HW IH]; intros HA q0 qs' s E Hs Ns Nq; injection E as <- <-; cbn [comp2].
  - destruct (quot2_cod F other (e2 P) A q XInf s _ _ H) as (s' & Hs'). rewrite Hs'. f_equal. f_equal.
    apply (dual2 F two SS HSS other HI1 HI2 (e2 P) He2 A q s A' s' HA Ho Hs Hs'); auto.
  - destruct (quot2_cod F other (e2 P) A q XInf s _ _ H) as (s' & Hs'). rewrite Hs'.
    assert (s' = XF 0) as -> by (apply (dual2 F two SS HSS other HI1 HI2 (e2 P) He2 A q s A' s' HA Ho Hs Hs'); auto).
    pose proof (quot2_ss F two SS HSS other HI1 HI2 (e2 P) He2 A q _ A' _ HA Ho H) as HA'.
    pose proof (canon_isos F unit sqrt lt enc dec rnd two sqrt_ok lt_irr lt_trans lt_total SS HSS A' HA') as HI. rewrite Hc in HI |- *. pose proof (ss_iso HSS A' B r u HA' HI) as HB.
    apply (IH HB q' qs); auto; [|discriminate|].
    + rewrite <- (isox_dblx F two A' B r u HI (ss_ns F SS HSS A' HA') (ss_ns F SS HSS B HB)). now rewrite zero_two.
    + intros D. apply walk2_rest in HW as (A2 & (_ & Nb & _) & _). exact (Nb _ eq_refl (eq_sym D)).
Qed.
Lemma cyclic3 A d qs A' : walk3 canon (e3 P) A d qs A' -> SS A -> forall q qs' s, qs = q :: qs' -> tplx A s = XInf -> s <> XInf ->
  s <> Nat.iter (e3 P - 1) (tplx A) q -> exists s', comp3 canon (e3 P) A qs s = Some (A', s') /\ s' <> XInf.
Proof.
  pose proof HS as (_ & He3 & _).
  assert (Q : forall A q A' s, SS A -> xord3 A (e3 P) q -> tplx A s = XInf -> s <> XInf -> s <> Nat.iter (e3 P - 1) (tplx A) q -> chain3 (e3 P) A q XInf = Some (A', XInf) ->
    SS A' /\ exists k A1, chain3 (e3 P - 1) A (tplx A q) q = Some (A1, XF k) /\ chain3 (e3 P) A q s = Some (A', XF (- (1) / (3 * k))) /\ tplx A' (XF (- (1) / (3 * k))) = XInf).
  { intros B q B' s HB Ho Hs Ns Nq HQ. pose proof (xord3_ord F unit sqrt lt enc dec rnd sqrt_ok lt_irr lt_trans lt_total K HS B q Ho) as Ho3.
    assert (EE : S (e3 P - 1) = e3 P) by lia. pose proof Ho3 as Ho4. rewrite EE in Ho4.
    destruct (chain3_cod F (e3 P) B q XInf s _ _ HQ) as (s' & Hs'). split; [exact (chain3_ss F two SS HSS (e3 P) B q XInf B' _ HB (or_intror Ho4) HQ)|].
    assert (Hs3 : chain3 (S (e3 P - 1)) B q s = Some (B', s')) by (rewrite EE; exact Hs').
    destruct (proj2 (dual3 F two (e3 P - 1) B q s B' s' (ss_ns F SS HSS B HB) Ho3 Hs Hs3) Ns Nq) as (A1 & k & E1 & ->). exists k, A1. split; [auto|]. split; [auto|].
    exact (chain3_tpl F two (S (e3 P - 1)) B q s B' _ (ss_ns F SS HSS B HB) (or_intror Ho3) Hs Hs3). }
  induction 1 as [A d q A' d' (Ho & _ & H & _)|A d q A' d' B r u q' qs A'' (Ho & _ & H & A1 & k1 & H1 & ->) Hc HW IH]; intros HA q0 qs' s E Hs Ns Nq; injection E as <- <-; cbn [comp3].
  - destruct (Q A q A' s HA Ho Hs Ns Nq H) as (_ & k & A1 & _ & E & _). rewrite E. eexists. split; [reflexivity|discriminate].
  - destruct (Q A q A' s HA Ho Hs Ns Nq H) as (HA' & k & A2 & E1 & E & Et). rewrite E. rewrite H1 in E1. injection E1 as _ <-.
    pose proof (canon_isos F unit sqrt lt enc dec rnd two sqrt_ok lt_irr lt_trans lt_total SS HSS A' HA') as HI. rewrite Hc in HI |- *. pose proof (ss_iso HSS A' B r u HA' HI) as HB.
    apply (IH HB q' qs); auto; [|discriminate|].
    + rewrite <- (isox_tplx F unit sqrt lt enc dec rnd two A' B r u HI (ss_ns F SS HSS A' HA') (ss_ns F SS HSS B HB)). now rewrite Et.
    + intros D. apply walk3_rest in HW as (A3 & d3 & (_ & Nb & _) & _). exact (Nb _ eq_refl (eq_sym D)).
Qed.
End OP.
