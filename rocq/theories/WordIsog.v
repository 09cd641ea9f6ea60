(** Isogeny_A and Isogeny_B on digit arrays. *)
From Coq Require Import Znumtheory Field.
From Verif Require Import Base BaseP Digits DigitsP Out Params Fp Wf FpP Fld FpRep FpMisc FpMiscP PrimeInst FpInst Ops Ec Models Sim ModelsSim
  WordOps FieldOps WordSim CurveSpec ModelSpec IsogSpec XSpec OrderSpec FldCurve GroupP MultP OrderP CheckP FldIsog IsoP FldModels WordCurve XLine XIso Strategy XChain XIsog.
Set Bullet Behavior "Strict Subproofs".

(** ** Exact order of points and of x-coordinates *)
Section Ord.
Variable F : fld.
Variables (unit : F) (sqrt : F -> F) (lt : F -> F -> bool) (enc : F -> list Z) (dec : list Z -> F) (rnd : tape -> out (F * tape)).
Local Notation O := (fld_ops F unit sqrt lt enc dec rnd).
Hypothesis two : (kadd k1 k1 : F) <> k0.
Local Open Scope fld_scope.
Variables A B : F.
Hypothesis HA : A * A <> 4.
Hypothesis HB : B <> 0.
Lemma iter_dblx n M : on A B M -> Nat.iter n (dblx A) (xof M) = xof (pmul A B (2 ^ n) M).
Proof.
  intros HM. induction n as [|n IH]; [cbn; destruct M; reflexivity|]. rewrite iter_S, IH. cbn [Nat.pow].
  rewrite (pmul_mul F two A B HA HB) by auto. rewrite (dblx_pt F two A B) by auto using (pmul_on F two A B HA HB).
  f_equal. generalize (pmul A B (2 ^ n) M). intros N. cbn [pmul]. destruct N; reflexivity.
Qed.
Lemma iter_tplx n M : on A B M -> Nat.iter n (tplx A) (xof M) = xof (pmul A B (3 ^ n) M).
Proof.
  intros HM. induction n as [|n IH]; [cbn; destruct M; reflexivity|]. rewrite iter_S, IH. cbn [Nat.pow].
  rewrite (pmul_mul F two A B HA HB) by auto. rewrite (tplx_pt F unit sqrt lt enc dec rnd two A B) by auto using (pmul_on F two A B HA HB).
  f_equal. generalize (pmul A B (3 ^ n) M). intros N. cbn [pmul]. destruct N; reflexivity.
Qed.
Lemma xof_Inf (M : point F) : xof M = XInf <-> M = Inf. Proof. destruct M; split; auto; discriminate. Qed.
Lemma xord2_order n M : on A B M -> (xord2 A n (xof M) <-> has_order A B M (2 ^ n)).
Proof.
  intros HM. unfold xord2. split.
  - intros [H1 H2]. apply (has_order_pow F two A B HA HB); auto.
    + exact prime_2.
    + apply xof_Inf. now rewrite <- iter_dblx.
    + intros Hn E. apply (H2 (n - 1)%nat); [lia|]. rewrite iter_dblx, E by auto. reflexivity.
  - intros H. split.
    + rewrite iter_dblx by auto. apply xof_Inf, H. apply Nat.divide_refl.
    + intros i Hi E. rewrite iter_dblx in E by auto. apply xof_Inf, H in E. apply Nat.divide_pos_le in E; [|apply Nat.neq_0_lt_0, Nat.pow_nonzero; lia].
      pose proof (Nat.pow_lt_mono_r 2 i n ltac:(lia) Hi). lia.
Qed.
Lemma xord3_order n M : on A B M -> (xord3 A n (xof M) <-> has_order A B M (3 ^ n)).
Proof.
  intros HM. unfold xord3. split.
  - intros [H1 H2]. apply (has_order_pow F two A B HA HB); auto.
    + exact prime_3.
    + apply xof_Inf. now rewrite <- iter_tplx.
    + intros Hn E. apply (H2 (n - 1)%nat); [lia|]. rewrite iter_tplx, E by auto. reflexivity.
  - intros H. split.
    + rewrite iter_tplx by auto. apply xof_Inf, H. apply Nat.divide_refl.
    + intros i Hi E. rewrite iter_tplx in E by auto. apply xof_Inf, H in E. apply Nat.divide_pos_le in E; [|apply Nat.neq_0_lt_0, Nat.pow_nonzero; lia].
      pose proof (Nat.pow_lt_mono_r 3 i n ltac:(lia) Hi). lia.
Qed.
End Ord.

Section WI.
Variable P : params.
Hypothesis HG : good P.
Hypothesis HS : strat_good P.
Local Notation HW := (FpInst.HW P HG). Local Notation Hp := (FpInst.Hp P HG).
Local Notation GF := (GF P HG). Local Notation el := (el P HG).
Local Notation pel := (pel P HG). Local Notation cel := (cel P HG). Local Notation coef := (coef P HG).
Local Notation crng := (crng P). Local Notation psrng := (psrng P). Local Notation nons := (nons P HG).
Notation OW := (word_ops P). Notation OF := (field_ops P HW Hp).
Local Notation FO := (fld_ops GF (toF P (vunit P), f0) (qsqrt P HW Hp) (qlt P HW Hp) (qenc P HW Hp) (dec_val P HW Hp) (qrand P HW Hp)).
Local Notation "'ARGS' f" := (f GF (toF P (vunit P), f0) (qsqrt P HW Hp) (qlt P HW Hp) (qenc P HW Hp) (dec_val P HW Hp) (qrand P HW Hp)) (at level 10, only parsing).

(** (X : Z) are projective coordinates of the x-coordinate q. *)
Definition repx (Q : pt OW) (q : xl GF) : Prop := psrng Q /\ rep (el (pX Q)) (el (pZ Q)) q.
Definition orepx (Q : option (pt OW)) (r : xl GF) : Prop := match Q with Some Q => repx Q r | None => True end.
Lemma lift_x (Q : pt OW) : psrng Q -> ~ (el (pX Q) = k0 /\ el (pZ Q) = k0) -> exists q, repx Q q.
Proof. intros H N. destruct (rep_of GF (el (pX Q)) (el (pZ Q)) N) as [q Hq]. exists q. split; auto. Qed.
Definition opel (Q : option (pt OW)) : option (pt OF) := match Q with Some Q => Some (pel Q) | None => None end.
Lemma opel_rel Q r : orepx Q r -> oprel OW OF (S0 P HG) Q (opel Q).
Proof. destruct Q as [Q|]; cbn; auto. intros [H _]. now apply pel_srel. Qed.
Lemma opel_orel Q r : orepx Q r -> orel FO (xl GF) (repp GF (toF P (vunit P), f0) (qsqrt P HW Hp) (qlt P HW Hp) (qenc P HW Hp) (dec_val P HW Hp) (qrand P HW Hp)) (opel Q) r.
Proof. destruct Q as [Q|]; cbn; auto. intros [_ H]. exact H. Qed.
Lemma oprel_orepx Q Q' r : oprel OW OF (S0 P HG) Q Q' ->
  orel FO (xl GF) (repp GF (toF P (vunit P), f0) (qsqrt P HW Hp) (qlt P HW Hp) (qenc P HW Hp) (dec_val P HW Hp) (qrand P HW Hp)) Q' r -> orepx Q r.
Proof.
  destruct Q as [Q|], Q' as [Q'|]; cbn; auto; try contradiction. intros H1 H2. apply psrel_el in H1 as [H1 <-]. split; auto.
Qed.
Lemma oprel_none Q Q' : oprel OW OF (S0 P HG) Q Q' -> (Q = None <-> Q' = None).
Proof. destruct Q, Q'; cbn; intros H; try contradiction; split; congruence. Qed.
Lemma opel_none Q : opel Q = None <-> Q = None. Proof. destruct Q; cbn; split; congruence. Qed.
Lemma coef_mul (E : curve OW) : el (cC E) <> k0 -> (el (cA E) = coef E * el (cC E))%F.
Proof.
  intros N. unfold WordCurve.coef. generalize (el (cA E)) (el (cC E)) N. clear. intros a c N.
  pose proof (kth GF) as T. destruct T as [R _ D I]. rewrite D. destruct R. rewrite <- Rmul_assoc, I by auto. now rewrite Rmul_comm, Rmul_1_l.
Qed.
Lemma coef_div (a c A' : GF) : c <> k0 -> a = kmul A' c -> kdiv a c = A'.
Proof.
  intros N ->. pose proof (kth GF) as T. destruct T as [R _ D I]. rewrite D. destruct R. rewrite <- Rmul_assoc, (Rmul_comm c), I by auto. now rewrite Rmul_comm, Rmul_1_l.
Qed.
Lemma crel_cel E E' : crel OW OF (S0 P HG) E E' -> crng E /\ cel E = E'.
Proof.
  intros [H1 H2]. apply rel2_el in H1 as [H1 E1]. apply rel2_el in H2 as [H2 E2]. split; [split; auto|].
  destruct E' as [a c]; unfold WordCurve.cel; cbn [cA cC] in *. now subst.
Qed.

Section A.
Variables (E : curve OW) (K : pt OW) (Q : option (pt OW)) (q r : xl GF).
Hypothesis HE : crng E.
Hypothesis HC : el (cC E) <> k0.
Hypothesis HK : repx K q.
Hypothesis HQ : orepx Q r.
Lemma Isogeny_A_word : full4 (coef E) ->
  (xord2 (coef E) (e2 P) q -> exists E' Q', Isogeny_A OW P E K Q = Ok (Some (E', Q')) /\ nons E' /\
     (exists r', quotient2 (e2 P) (coef E) q r (coef E') r' /\ orepx Q' r') /\ (Q' = None <-> Q = None)) /\
  (~ xord2 (coef E) (e2 P) q -> Isogeny_A OW P E K Q = Ok None).
Proof.
  intros H4. destruct HK as [HK1 HK2].
  pose proof (Isogeny_A_sim OW OF (S0 P HG) P E (cel E) K (pel K) Q (opel Q) (cel_rel P HG E HE) (pel_srel P HG K HK1) (opel_rel Q r HQ)) as Sim.
  destruct (Isogeny_A_ok GF (toF P (vunit P), f0) (qsqrt P HW Hp) (qlt P HW Hp) (qenc P HW Hp) (dec_val P HW Hp) (qrand P HW Hp)
    (two_nz P HG) (sqrt_GF P HG) P HS (cel E) (coef E) HC (coef_mul E HC) H4 (pel K) (opel Q) q r HK2 (opel_orel Q r HQ)) as [Y N].
  change (fld_ops GF _ _ _ _ _ _) with OF in Y, N. split.
  - intros Ho. destruct (Y Ho) as (E' & Q' & A' & r' & E1 & Hq & HA' & HC' & HcA & HQ' & HN & _). rewrite E1 in Sim.
    inversion Sim as [a b HI Ea Eb| | | |]. subst b. destruct a as [[E2 Q2]|]; [|contradiction]. destruct HI as [HI1 HI2]. apply crel_cel in HI1 as [HI1 HI3].
    assert (EC : coef E2 = A') by (subst E'; apply coef_div; auto).
    exists E2, Q2. split; [reflexivity|]. split; [|split].
    + split; [exact HI1|]. split; [subst E'; exact HC'|]. rewrite EC. exact HA'.
    + exists r'. split; [rewrite EC; exact Hq|]. exact (oprel_orepx _ _ _ HI2 HQ').
    + now rewrite (oprel_none _ _ HI2), HN, opel_none.
  - intros Ho. rewrite (N Ho) in Sim. inversion Sim as [a b HI Ea Eb| | | |]. subst b. destruct a as [[E2 Q2]|]; [contradiction|reflexivity].
Qed.
Lemma Isogeny_B_word wb tp : rand_ok P -> (coef E * coef E <> 4)%F ->
  (~ xord3 (coef E) (e3 P) q -> Isogeny_B OW P E K Q wb tp = Ok (None, tp)) /\
  (xord3 (coef E) (e3 P) q ->
     (wb = false -> exists o, Isogeny_B OW P E K Q wb tp = Ok (Some o, tp)) /\
     forall o tp', Isogeny_B OW P E K Q wb tp = Ok (o, tp') -> exists E' Q' b, o = Some (E', Q', b) /\ nons E' /\
     (exists r', chain3 (e3 P) (coef E) q r = Some (coef E', r') /\ orepx Q' r') /\ (Q' = None <-> Q = None) /\
     (if wb then exists b' A1 k1, b = Some b' /\ chain3 (e3 P - 1) (coef E) (tplx (coef E) q) q = Some (A1, XF k1) /\
        coef E' = A3 A1 k1 /\ k1 <> k0 /\ repx b' (XF (- (1) / (3 * k1))%F) else b = None)).
Proof.
  intros HR HA. destruct HK as [HK1 HK2].
  pose proof (Isogeny_B_sim OW OF (S0 P HG) (word_rand P HW Hp HR) P E (cel E) K (pel K) Q (opel Q) wb tp (cel_rel P HG E HE) (pel_srel P HG K HK1) (opel_rel Q r HQ)) as Sim.
  pose proof (Isogeny_B_no GF (toF P (vunit P), f0) (qsqrt P HW Hp) (qlt P HW Hp) (qenc P HW Hp) (dec_val P HW Hp) (qrand P HW Hp)
    (two_nz P HG) P HS (cel E) (coef E) HC (coef_mul E HC) HA (pel K) (opel Q) q HK2 wb tp) as N.
  pose proof (Isogeny_B_yes GF (toF P (vunit P), f0) (qsqrt P HW Hp) (qlt P HW Hp) (qenc P HW Hp) (dec_val P HW Hp) (qrand P HW Hp)
    (two_nz P HG) P HS (cel E) (coef E) HC (coef_mul E HC) HA (pel K) (opel Q) q r HK2 (opel_orel Q r HQ) wb tp) as Y.
  change (fld_ops GF _ _ _ _ _ _) with OF in Y, N. split.
  - intros Ho. rewrite (N Ho) in Sim. inversion Sim as [[a t] b [HI1 HI2] Ea Eb| | | |]. subst b. cbn [fst snd] in *. subst t.
    destruct a as [[[E2 Q2] b2]|]; [contradiction|reflexivity].
  - intros Ho. destruct (Y Ho) as (A1 & R1 & k1 & Q' & E' & E1 & HA1 & Hk1 & HR1 & HC' & HcA & (r1 & Hch & HQ') & HN & Hlast). clear Y N.
    assert (HA' : (A3 A1 k1 * A3 A1 k1 <> 4)%F) by (apply (cod3 GF (toF P (vunit P), f0) (qsqrt P HW Hp) (qlt P HW Hp) (qenc P HW Hp) (dec_val P HW Hp) (qrand P HW Hp) (two_nz P HG)); auto).
    split.
    + intros ->. cbn [bind] in E1. rewrite E1 in Sim. inversion Sim as [[a t] b [HI1 HI2] Ea Eb| | | |]. subst b. cbn [fst snd] in *. subst t.
      destruct a as [o|]; [|contradiction]. exists o. reflexivity.
    + intros o tp' Eo. rewrite Eo in Sim. inversion Sim as [[a t] [o' t'] [HI1 HI2] Ea Eb| | | |]. subst a t. cbn [fst snd] in HI1, HI2. subst t'.
      rewrite E1 in Eb. clear E1 Eo Sim.
      destruct (if wb then _ else _) as [[back t2]| | | |] eqn:EB; cbn [bind] in Eb; try discriminate. injection Eb as -> ->.
      destruct o as [[[E2 Q2] b2]|]; [|contradiction]. destruct HI1 as (HI1 & HI2 & HI3). apply crel_cel in HI1 as [HI1 HI4].
      assert (EC : coef E2 = A3 A1 k1) by (subst E'; apply coef_div; auto).
      exists E2, Q2, b2. split; [reflexivity|]. split; [|split; [|split]].
      * split; [exact HI1|]. split; [subst E'; exact HC'|]. rewrite EC. exact HA'.
      * eexists. split; [rewrite EC; exact Hch|]. exact (oprel_orepx _ _ _ HI2 HQ').
      * now rewrite (oprel_none _ _ HI2), HN, opel_none.
      * destruct wb.
        -- destruct (back_B_loop OF P (S (length tp)) A1 R1 tp) as [[b t3]| | | |] eqn:EL; cbn [bind] in EB; try discriminate. injection EB as <- <-.
           apply (back_B_ok GF (toF P (vunit P), f0) (qsqrt P HW Hp) (qlt P HW Hp) (qenc P HW Hp) (dec_val P HW Hp) (qrand P HW Hp)
             (two_nz P HG) (sqrt_GF P HG) P A1 R1 k1 HA1 HR1) in EL as (x & Nx & Hx & Hb).
           destruct (two_ker3 GF (two_nz P HG) A1 k1 x Hk1 Hx Nx) as (_ & Nk & Ed).
           destruct b2 as [b2|]; [|contradiction]. exists b2, A1, k1. split; [reflexivity|]. split; [exact Hlast|]. split; [exact EC|]. split; [exact Nk|].
           rewrite <- Ed. change (orepx (Some b2) (phi3x k1 (XF x))). refine (oprel_orepx _ _ _ HI3 _). cbn [omap orel].
           apply (ev3_rep GF (toF P (vunit P), f0) (qsqrt P HW Hp) (qlt P HW Hp) (qenc P HW Hp) (dec_val P HW Hp) (qrand P HW Hp) (two_nz P HG) A1 HA1 k1 Hk1); auto.
        -- injection EB as <- <-. destruct b2; [contradiction|reflexivity].
Qed.
End A.
(** In terms of points of the curve B y^2 = x^3 + A x^2 + x. *)
Lemma repr_x Q (M : point GF) : psrng Q -> repr P HG Q M -> repx Q (xof M).
Proof. intros H [_ X]. split; auto. now apply rep_xz. Qed.
Definition opsrng (Q : option (pt OW)) : Prop := match Q with Some Q => psrng Q /\ ~ (el (pX Q) = k0 /\ el (pZ Q) = k0) | None => True end.
Lemma opsrng_x Q : opsrng Q -> exists r, orepx Q r.
Proof. destruct Q as [Q|]; cbn; [|exists XInf; auto]. intros [H N]. now apply lift_x. Qed.
Lemma accepts_A E K Q B (M : point GF) : crng E -> el (cC E) <> k0 -> full4 (coef E) -> B <> k0 -> on (coef E) B M -> psrng K -> repr P HG K M -> opsrng Q ->
  (has_order (coef E) B M (2 ^ e2 P) -> exists o, Isogeny_A OW P E K Q = Ok (Some o)) /\
  (~ has_order (coef E) B M (2 ^ e2 P) -> Isogeny_A OW P E K Q = Ok None).
Proof.
  intros HE HC H4 HB HM HK HR HQ. destruct (opsrng_x Q HQ) as [r Hr]. pose proof H4 as [HA _].
  destruct (Isogeny_A_word E K Q (xof M) r HE HC (repr_x K M HK HR) Hr H4) as [Y N].
  rewrite (xord2_order GF (qsqrt P HW Hp) (qlt P HW Hp) (qenc P HW Hp) (dec_val P HW Hp) (qrand P HW Hp) (two_nz P HG) (coef E) B HA HB) in Y, N by auto. split; [|exact N]. intros Ho. destruct (Y Ho) as (E' & Q' & E1 & _). eauto.
Qed.
Lemma accepts_B E K Q B (M : point GF) tp : rand_ok P -> crng E -> el (cC E) <> k0 -> (coef E * coef E <> 4)%F -> B <> k0 -> on (coef E) B M -> psrng K -> repr P HG K M -> opsrng Q ->
  (has_order (coef E) B M (3 ^ e3 P) -> (exists o, Isogeny_B OW P E K Q false tp = Ok (Some o, tp)) /\
      forall tp', Isogeny_B OW P E K Q true tp <> Ok (None, tp')) /\
  (~ has_order (coef E) B M (3 ^ e3 P) -> forall wb, Isogeny_B OW P E K Q wb tp = Ok (None, tp)).
Proof.
  intros HRA HE HC HA HB HM HK HR HQ. destruct (opsrng_x Q HQ) as [r Hr].
  pose proof (fun wb => Isogeny_B_word E K Q (xof M) r HE HC (repr_x K M HK HR) Hr wb tp HRA HA) as H.
  pose proof (xord3_order GF (toF P (vunit P), f0) (qsqrt P HW Hp) (qlt P HW Hp) (qenc P HW Hp) (dec_val P HW Hp) (qrand P HW Hp) (two_nz P HG) (coef E) B HA HB (e3 P) M HM) as HO.
  split.
  - intros Ho. apply (proj2 HO) in Ho. split; [now apply (H false)|]. intros tp' E1. destruct (H true) as [_ Y]. destruct (Y Ho) as [_ Y2].
    destruct (Y2 _ _ E1) as (E' & Q' & b & D & _). discriminate.
  - intros Ho wb. apply (H wb). intros X. apply Ho. exact (proj1 HO X).
Qed.
(** The pair (0 : 0) is no point: both functions refuse it. *)
Lemma refuses_A E K Q : crng E -> el (cC E) <> k0 -> full4 (coef E) -> psrng K -> el (pX K) = k0 -> el (pZ K) = k0 -> opsrng Q -> Isogeny_A OW P E K Q = Ok None.
Proof.
  intros HE HC H4 HK E1 E2 HQ. destruct (opsrng_x Q HQ) as [r Hr].
  pose proof (Isogeny_A_sim OW OF (S0 P HG) P E (cel E) K (pel K) Q (opel Q) (cel_rel P HG E HE) (pel_srel P HG K HK) (opel_rel Q r Hr)) as Sim.
  assert (E0 : pel K = @mkPt FO (@k0 GF) (@k0 GF)) by (unfold WordCurve.pel; now rewrite E1, E2).
  rewrite E0 in Sim.
  assert (N : Isogeny_A OF P (cel E) (@mkPt FO (@k0 GF) (@k0 GF)) (opel Q) = Ok None).
  { apply (Isogeny_A_00 GF (toF P (vunit P), f0) (qsqrt P HW Hp) (qlt P HW Hp) (qenc P HW Hp) (dec_val P HW Hp) (qrand P HW Hp)
      (two_nz P HG) (sqrt_GF P HG) P (cel E) (coef E) HC (coef_mul E HC) H4). }
  rewrite N in Sim. inversion Sim as [a b HI Ea Eb| | | |]. subst b. destruct a as [[E3 Q3]|]; [contradiction|reflexivity].
Qed.
Lemma refuses_B E K Q wb tp : rand_ok P -> crng E -> psrng K -> el (pX K) = k0 -> el (pZ K) = k0 -> opsrng Q -> Isogeny_B OW P E K Q wb tp = Ok (None, tp).
Proof.
  intros HRA HE HK E1 E2 HQ. destruct (opsrng_x Q HQ) as [r Hr].
  pose proof (Isogeny_B_sim OW OF (S0 P HG) (word_rand P HW Hp HRA) P E (cel E) K (pel K) Q (opel Q) wb tp (cel_rel P HG E HE) (pel_srel P HG K HK) (opel_rel Q r Hr)) as Sim.
  assert (E0 : pel K = @mkPt FO (@k0 GF) (@k0 GF)) by (unfold WordCurve.pel; now rewrite E1, E2).
  rewrite E0 in Sim.
  assert (N : Isogeny_B OF P (cel E) (@mkPt FO (@k0 GF) (@k0 GF)) (opel Q) wb tp = Ok (None, tp)).
  { apply (Isogeny_B_00 GF (toF P (vunit P), f0) (qsqrt P HW Hp) (qlt P HW Hp) (qenc P HW Hp) (dec_val P HW Hp) (qrand P HW Hp)). }
  rewrite N in Sim. inversion Sim as [[a t] b [HI1 HI2] Ea Eb| | | |]. subst b. cbn [fst snd] in *. subst t.
  destruct a as [[[E3 Q3] b3]|]; [contradiction|reflexivity].
Qed.
End WI.

Lemma strat_configurations P : In P [P434 T64; P503 T64; P610 T64; P751 T64; P434 T32; P503 T32; P610 T32; P751 T32] -> strat_good P.
Proof.
  intros H. cbn [In] in H. repeat destruct H as [<-|H]; try contradiction; (repeat split; vm_compute; try reflexivity; lia).
Qed.

(** ** Forms for the property file *)
Lemma safe_A O P : strat_good P -> forall c R Q,
  exists r, traverse O _ _ (mulm_A O) (get_4_isog O) (eval_4_isog O) (max_alice P) (max_int_alice P) c R Q (strat_alice P) = Ok r.
Proof. intros (_ & _ & _ & _ & H & _) c R Q. apply traverse_safe. exact H. Qed.
Lemma safe_B O P : strat_good P -> forall c R Q,
  exists r, traverse O _ _ (mulm_B O) (get_3_isog O) (eval_3_isog O) (max_bob P) (max_int_bob P) c R Q (strat_bob P) = Ok r.
Proof. intros (_ & _ & _ & _ & _ & H) c R Q. apply traverse_safe. exact H. Qed.
Section Forms.
Variable P : params.
Hypothesis HG : good P.
Local Notation HW := (FpInst.HW P HG). Local Notation Hp := (FpInst.Hp P HG).
Lemma chain_A : strat_good P -> forall E K Q q r, crng P E -> el P HG (cC E) <> k0 -> full4 (coef P HG E) ->
  repx P HG K q -> orepx P HG Q r -> xord2 (coef P HG E) (e2 P) q ->
  exists E' Q', Isogeny_A (word_ops P) P E K Q = Ok (Some (E', Q')) /\ nons P HG E' /\
    (exists r', quotient2 (e2 P) (coef P HG E) q r (coef P HG E') r' /\ orepx P HG Q' r') /\ (Q' = None <-> Q = None).
Proof. intros HS E K Q q r HE HC H4 HK HQ Ho. exact (proj1 (Isogeny_A_word P HG HS E K Q q r HE HC HK HQ H4) Ho). Qed.
Lemma chain_B : strat_good P -> rand_ok P -> forall E K Q q r wb tp o tp', crng P E -> el P HG (cC E) <> k0 ->
  (coef P HG E * coef P HG E <> 4)%F -> repx P HG K q -> orepx P HG Q r -> xord3 (coef P HG E) (e3 P) q ->
  Isogeny_B (word_ops P) P E K Q wb tp = Ok (o, tp') ->
  exists E' Q' b, o = Some (E', Q', b) /\ nons P HG E' /\
    (exists r', chain3 (e3 P) (coef P HG E) q r = Some (coef P HG E', r') /\ orepx P HG Q' r') /\ (Q' = None <-> Q = None) /\
    (if wb then exists b' A1 k1, b = Some b' /\ chain3 (e3 P - 1) (coef P HG E) (tplx (coef P HG E) q) q = Some (A1, XF k1) /\
       coef P HG E' = A3 A1 k1 /\ k1 <> k0 /\ repx P HG b' (XF (- (1) / (3 * k1))%F) else b = None).
Proof.
  intros HS HR E K Q q r wb tp o tp' HE HC HA HK HQ Ho E1.
  exact (proj2 (proj2 (Isogeny_B_word P HG HS E K Q q r HE HC HK HQ wb tp HR HA) Ho) o tp' E1).
Qed.
Lemma x_points (A B : GF P HG) M : (A * A <> 4)%F -> B <> k0 -> on A B M ->
  dblx A (xof M) = xof (padd A B M M) /\ tplx A (xof M) = xof (padd A B M (padd A B M M)) /\
  (forall k, phi2x k (xof M) = xof (phi2 k M) /\ phi3x k (xof M) = xof (phi3 k M) /\ phi4x k (xof M) = xof (phi4 k M)).
Proof.
  intros HA HB HM. split; [apply (dblx_pt _ (two_nz P HG)); auto|]. split.
  - apply (tplx_pt (GF P HG) (toF P (vunit P), f0) (qsqrt P HW Hp) (qlt P HW Hp) (qenc P HW Hp) (dec_val P HW Hp) (qrand P HW Hp) (two_nz P HG)); auto.
  - intros k. split; [symmetry; apply xof_phi2|]. split; symmetry; [apply xof_phi3|apply xof_phi4].
Qed.
Lemma x_order (A B : GF P HG) n M : (A * A <> 4)%F -> B <> k0 -> on A B M ->
  (xord2 A n (xof M) <-> has_order A B M (2 ^ n)) /\ (xord3 A n (xof M) <-> has_order A B M (3 ^ n)).
Proof.
  intros HA HB HM. split.
  - apply (xord2_order (GF P HG) (qsqrt P HW Hp) (qlt P HW Hp) (qenc P HW Hp) (dec_val P HW Hp) (qrand P HW Hp) (two_nz P HG)); auto.
  - apply (xord3_order (GF P HG) (toF P (vunit P), f0) (qsqrt P HW Hp) (qlt P HW Hp) (qenc P HW Hp) (dec_val P HW Hp) (qrand P HW Hp) (two_nz P HG)); auto.
Qed.
Lemma every_pair A (K : pt (word_ops P)) : psrng P K -> ~ (el P HG (pX K) = k0 /\ el P HG (pZ K) = k0) ->
  exists B M, B <> k0 /\ on A B M /\ repr P HG K M.
Proof.
  intros HK N. destruct (lift_x P HG K HK N) as (q & _ & Hq). destruct (lift (GF P HG) A q) as (B & M & HB & HM & EM). exists B, M.
  split; auto. split; auto. split; [now apply psrng_prng|]. apply rep_xz. now rewrite EM.
Qed.
Lemma refuses_00 E K Q wb tp : crng P E -> el P HG (cC E) <> k0 -> full4 (coef P HG E) ->
  psrng P K -> el P HG (pX K) = k0 -> el P HG (pZ K) = k0 -> opsrng P HG Q ->
  Isogeny_A (word_ops P) P E K Q = Ok None /\ (rand_ok P -> Isogeny_B (word_ops P) P E K Q wb tp = Ok (None, tp)).
Proof. intros. split; [now apply (refuses_A P HG)|]. intros. now apply (refuses_B P HG). Qed.
End Forms.
