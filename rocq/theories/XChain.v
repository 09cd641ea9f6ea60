(** Isogeny_A and Isogeny_B over a field compute the chains of XSpec.v. *)
From Coq Require Import Field.
From Verif Require Import Base Out Params Ops Ec Models Fld FieldOps CurveSpec IsogSpec ModelSpec XSpec FldCurve GroupP MultP IsoP FldIsog FldModels
  XLine XIso Strategy.
Set Bullet Behavior "Strict Subproofs".

Lemma iter_2 {T} (f : T -> T) n x : Nat.iter n (fun y => f (f y)) x = Nat.iter (2 * n) f x.
Proof.
  induction n as [|n IH]; [reflexivity|]. replace (2 * S n)%nat with (S (S (2 * n))) by lia. cbn [Nat.iter].
  unfold Nat.iter in *. cbn [nat_rect]. now rewrite IH.
Qed.
Lemma iter_S {T} (f : T -> T) n x : Nat.iter (S n) f x = f (Nat.iter n f x).
Proof. reflexivity. Qed.

Section XC.
Variable F : fld.
Variables (unit : F) (sqrt : F -> F) (lt : F -> F -> bool) (enc : F -> list Z) (dec : list Z -> F) (rnd : tape -> out (F * tape)).
Local Notation O := (fld_ops F unit sqrt lt enc dec rnd).
Hypothesis two : (kadd k1 k1 : F) <> k0.
Local Open Scope fld_scope.
Definition kth8 := kth F.
Add Field KF8 : kth8.
Ltac fsd := repeat match goal with |- _ /\ _ => split end;
  first [assumption | exact two | exact (four_nz F two) | apply (neg_nz F); assumption].
Ltac opn := cbn [fld_ops o_add o_sub o_madd o_msub o_mul o_sqr o_zero o_one fst snd pX pZ co0 co1 co2].
Ltac toF_eq := match goal with |- ?a = ?b => change (@eq (K F) a b) end.
Ltac rng := toF_eq; ring.
Notation repp := (repp F unit sqrt lt enc dec rnd).

(** ** Steps of degree 4 *)
Definition step4 (A : F) (q : xl F) : xl F := dblx A (dblx A q).
Definition crel4 (c : F * F) (A : F) : Prop := A * A <> 4 /\ snd c <> 0 /\ 4 * fst c = (A + 2) * snd c.
Definition ord4 (n : nat) (A : F) (q : xl F) : Prop :=
  exists m, m <> 0 /\ Nat.iter (2 * n - 1) (dblx A) q = XF m /\ dblx A (XF m) = XInf.
Lemma iter_step4 n A q : Nat.iter n (step4 A) q = Nat.iter (2 * n) (dblx A) q.
Proof. exact (iter_2 (dblx A) n q). Qed.
Lemma ord4_S n A q : ord4 (S n) A q -> exists k m, Nat.iter (2 * n) (dblx A) q = XF k /\ m <> 0 /\ dblx A (XF k) = XF m /\ dblx A (XF m) = XInf.
Proof.
  intros (m & Nm & E1 & E2). replace (2 * S n - 1)%nat with (S (2 * n)) in E1 by lia. rewrite iter_S in E1.
  destruct (Nat.iter (2 * n) (dblx A) q) as [|k]; [discriminate|]. exists k, m. auto.
Qed.
Lemma dblx_00 (A : F) : dblx A (XF 0) = XInf.
Proof. cbn. destruct (kdec (fx A 0) 0) as [_|N]; [reflexivity|]. exfalso. apply N. unfold fx. ring. Qed.
Lemma phi4_iter (A k : F) n q : A * A <> 4 -> ker4 A k -> phi4x k (Nat.iter n (dblx A) q) = Nat.iter n (dblx (A4 k)) (phi4x k q).
Proof.
  intros HA (m & Nm & E1 & E2). induction n as [|n IH]; [reflexivity|]. rewrite !iter_S, <- IH.
  apply (phi4_dblx F unit sqrt lt enc dec rnd two A HA k m Nm E1 E2).
Qed.
Lemma next4 (A : F) n q k : A * A <> 4 -> ord4 (S (S n)) A q -> Nat.iter (2 * S n) (dblx A) q = XF k -> ord4 (S n) (A4 k) (phi4x k q).
Proof.
  intros HA Ho Ek. destruct (ord4_S _ _ _ Ho) as (k' & m & E0 & Nm & E1 & E2). rewrite Ek in E0. injection E0 as <-.
  assert (Hk : ker4 A k) by (exists m; auto).
  unfold ord4. rewrite <- (phi4_iter A) by auto. replace (2 * S n - 1)%nat with (S (2 * n)) by lia.
  replace (2 * S n)%nat with (S (S (2 * n))) in Ek by lia. rewrite iter_S in Ek.
  set (T := Nat.iter (S (2 * n)) (dblx A) q) in *. clearbody T.
  assert (Nkm : k <> m) by (intros ->; rewrite E2 in E1; discriminate).
  assert (C : dblx (A4 k) (phi4x k T) = XInf).
  { rewrite <- (phi4_dblx F unit sqrt lt enc dec rnd two A HA k m Nm E1 E2), Ek. apply (phi4x_inf F unit sqrt lt enc dec rnd two A HA k m Nm E1 E2). auto. }
  destruct (phi4x k T) as [|m'] eqn:EP.
  - apply (phi4x_inf F unit sqrt lt enc dec rnd two A HA k m Nm E1 E2) in EP as [-> |[-> | ->]]; [discriminate Ek|congruence|congruence].
  - exists m'. split; [|auto]. intros ->. apply (phi4x_zero F two A HA k m Nm E1 E2) in EP as [-> |[E|E]].
    + rewrite dblx_00 in Ek. discriminate.
    + congruence.
    + congruence.
Qed.

(** ** Steps of degree 3 *)
Definition crel3 (c : F * F) (A : F) : Prop := A * A <> 4 /\ exists s, s <> 0 /\ fst c = (A - 2) * s /\ snd c = (A + 2) * s.
Definition ord3 (n : nat) (A : F) (q : xl F) : Prop := exists k, Nat.iter (n - 1) (tplx A) q = XF k /\ tplx A (XF k) = XInf.
Lemma ord3_S n A q : ord3 (S n) A q -> exists k, Nat.iter n (tplx A) q = XF k /\ ker3 A k.
Proof. intros (k & E1 & E2). replace (S n - 1)%nat with n in E1 by lia. eauto. Qed.
Lemma phi3_iter (A k : F) n q : A * A <> 4 -> ker3 A k -> phi3x k (Nat.iter n (tplx A) q) = Nat.iter n (tplx (A3 A k)) (phi3x k q).
Proof.
  intros HA Hk. induction n as [|n IH]; [reflexivity|]. rewrite !iter_S, <- IH.
  apply (phi3_tplx F unit sqrt lt enc dec rnd two A HA k Hk).
Qed.
Lemma next3 (A : F) n q k : A * A <> 4 -> ord3 (S (S n)) A q -> Nat.iter (S n) (tplx A) q = XF k -> ker3 A k -> ord3 (S n) (A3 A k) (phi3x k q).
Proof.
  intros HA Ho Ek Hk. unfold ord3. rewrite <- (phi3_iter A) by auto. replace (S n - 1)%nat with n by lia. rewrite iter_S in Ek.
  set (T := Nat.iter n (tplx A) q) in *. clearbody T.
  assert (C : tplx (A3 A k) (phi3x k T) = XInf).
  { rewrite <- (phi3_tplx F unit sqrt lt enc dec rnd two A HA k Hk), Ek. apply (phi3x_inf F unit sqrt lt enc dec rnd). auto. }
  destruct (phi3x k T) as [|k'] eqn:EP; [|eauto].
  exfalso. apply (phi3x_inf F unit sqrt lt enc dec rnd) in EP as [-> | ->]; [discriminate|]. unfold ker3 in Hk. congruence.
Qed.

(** ** The traversals *)
Notation walk4 := (walk (xl F) F F step4 XF (fun _ => @A4 F) phi4x ker4).
Notation walk3 := (walk (xl F) F F tplx XF A3 phi3x ker3).
Notation image4 := (image (xl F) F phi4x). Notation image3 := (image (xl F) F phi3x).
Notation orelp := (orel O (xl F) repp).
Lemma traverse4 maxr maxint c A R Q r q strat : strat_ok maxr maxint strat = true -> crel4 c A -> ord4 maxr A q -> repp R q -> orelp Q r ->
  exists c' R' Q' A' k1 ks, traverse O (T O * T O) _ (mulm_A O) (get_4_isog O) (eval_4_isog O) maxr maxint c R Q strat = Ok (c', R', Q') /\
    crel4 c' A' /\ ker4 A' k1 /\ repp R' (XF k1) /\ orelp Q' (image4 ks r) /\ walk4 maxr A q (A4 k1) (ks ++ [k1]) /\ walk4 (maxr - 1) A (step4 A q) A' ks /\ image4 ks q = XF k1 /\
    (Q = None -> Q' = None) /\ (Q <> None -> Q' <> None).
Proof.
  apply (traverse_ok O (T O * T O) (coeff3 O) (mulm_A O) (get_4_isog O) (eval_4_isog O) maxr maxint (xl F) F F step4 XF (fun _ => @A4 F) phi4x ker4 crel4 repp ord4).
  - intros c' a m R' q' (HA & Hc & Ha) HR. rewrite iter_step4. apply (dble_rep F unit sqrt lt enc dec rnd two a HA); auto.
  - intros c' a k R' (HA & _) Hk HR. destruct Hk as (m & Nm & E1 & E2). split.
    + split; [apply (cod4 F two a HA k m Nm E1 E2)|]. apply (get4_rep F unit sqrt lt enc dec rnd two k R' HR).
    + intros S0 q0 HS. apply (ev4_rep F unit sqrt lt enc dec rnd two a HA k m Nm E1 E2); auto.
  - intros c' a k q' (HA & _) (m & Nm & E1 & E2). unfold step4.
    rewrite !(phi4_dblx F unit sqrt lt enc dec rnd two a HA k m Nm E1 E2). reflexivity.
  - intros c' a n q' (HA & _) Ho. destruct (ord4_S _ _ _ Ho) as (k & m & E0 & Nm & E1 & E2). exists k. rewrite iter_step4. split; auto. exists m. auto.
  - intros c' a n q' k (HA & _) Ho E _. rewrite iter_step4 in E. now apply (next4 a).
Qed.
Lemma traverse3 maxr maxint c A R Q r q strat : strat_ok maxr maxint strat = true -> crel3 c A -> ord3 maxr A q -> repp R q -> orelp Q r ->
  exists c' R' Q' A' k1 ks, traverse O (T O * T O) _ (mulm_B O) (get_3_isog O) (eval_3_isog O) maxr maxint c R Q strat = Ok (c', R', Q') /\
    crel3 c' A' /\ ker3 A' k1 /\ repp R' (XF k1) /\ orelp Q' (image3 ks r) /\ walk3 maxr A q (A3 A' k1) (ks ++ [k1]) /\ walk3 (maxr - 1) A (tplx A q) A' ks /\ image3 ks q = XF k1 /\
    (Q = None -> Q' = None) /\ (Q <> None -> Q' <> None).
Proof.
  apply (traverse_ok O (T O * T O) (coeff3 O) (mulm_B O) (get_3_isog O) (eval_3_isog O) maxr maxint (xl F) F F tplx XF A3 phi3x ker3 crel3 repp ord3).
  - intros c' a m R' q' (HA & s & Hs & Em & Ep) HR. apply (tple_rep F unit sqrt lt enc dec rnd two a HA) with (s := s); auto.
  - intros c' a k R' (HA & _) Hk HR. split.
    + split; [apply (cod3 F unit sqrt lt enc dec rnd two a HA k Hk)|]. apply (get3_rep F unit sqrt lt enc dec rnd two a HA k Hk R' HR).
    + intros S0 q0 HS. apply (ev3_rep F unit sqrt lt enc dec rnd two a HA k Hk); auto.
  - intros c' a k q' (HA & _) Hk. apply (phi3_tplx F unit sqrt lt enc dec rnd two a HA k Hk).
  - intros c' a n q' (HA & _) Ho. apply ord3_S. exact Ho.
  - intros c' a n q' k (HA & _) Ho E Hk. now apply (next3 a).
Qed.
(** Walks are the chains. *)
Lemma walk_chain4 n A q A' ks r : walk4 n A q A' ks -> chain4 n A q r = Some (A', image4 ks r).
Proof.
  intros H. revert r. induction H as [a q|n a q k a' ks E Hk H IH]; intros r; [reflexivity|]. cbn [chain4]. rewrite iter_step4 in E. rewrite E. apply IH.
Qed.
Lemma walk_chain3 n A q A' ks r : walk3 n A q A' ks -> chain3 n A q r = Some (A', image3 ks r).
Proof.
  intros H. revert r. induction H as [a q|n a q k a' ks E Hk H IH]; intros r; [reflexivity|]. cbn [chain3]. rewrite E. apply IH.
Qed.
Lemma image_snoc {X0 K0} (phi : K0 -> X0 -> X0) ks k r : image X0 K0 phi (ks ++ [k]) r = phi k (image X0 K0 phi ks r).
Proof. unfold image. now rewrite fold_left_app. Qed.

(** ** Exact order in terms of two values *)
Lemma iter_inf (f : xl F -> xl F) i n q : f XInf = XInf -> (i <= n)%nat -> Nat.iter i f q = XInf -> Nat.iter n f q = XInf.
Proof.
  intros Hf Hi E. replace n with (n - i + i)%nat by lia. rewrite iter_plus, E. clear E.
  induction (n - i)%nat as [|d IH]; [reflexivity|]. now rewrite iter_S, IH.
Qed.
Lemma xord2_two (A : F) n q : (1 <= n)%nat -> (xord2 A n q <-> Nat.iter (n - 1) (dblx A) q <> XInf /\ dblx A (Nat.iter (n - 1) (dblx A) q) = XInf).
Proof.
  intros Hn. rewrite <- iter_S. replace (S (n - 1)) with n by lia. split.
  - intros [H1 H2]. split; [apply H2; lia|exact H1].
  - intros [H1 H2]. split; [exact H2|]. intros i Hi E. apply H1. apply (iter_inf (dblx A) i); auto. lia.
Qed.
Lemma xord3_two (A : F) n q : (1 <= n)%nat -> (xord3 A n q <-> Nat.iter (n - 1) (tplx A) q <> XInf /\ tplx A (Nat.iter (n - 1) (tplx A) q) = XInf).
Proof.
  intros Hn. rewrite <- iter_S. replace (S (n - 1)) with n by lia. split.
  - intros [H1 H2]. split; [apply H2; lia|exact H1].
  - intros [H1 H2]. split; [exact H2|]. intros i Hi E. apply H1. apply (iter_inf (tplx A) i); auto. lia.
Qed.
(** ** Changes of model *)
Lemma isox_pt r u M : isox r u (xof M) = xof (iso_pt F r u M). Proof. destruct M; reflexivity. Qed.
Section Chg.
Variables A A' r u : F.
Hypothesis HI : iso_to A A' r u.
Hypothesis HA : A * A <> 4.
Hypothesis HA' : A' * A' <> 4.
Lemma isox_dblx q : isox r u (dblx A q) = dblx A' (isox r u q).
Proof.
  pose proof HI as [Nu _]. destruct (lift F A q) as (B & M & HB & HM & <-). rewrite (dblx_pt F two A B M HA HB HM), !isox_pt.
  assert (HB' : B / (u * u * u) <> 0).
  { intros E. apply HB. transitivity (B / (u * u * u) * (u * u * u)); [field; auto|rewrite E; ring]. }
  rewrite (dblx_pt F two A' (B / (u * u * u)) _ HA' HB') by (now apply (iso_on F A A' B r u HI)).
  now rewrite (iso_padd F two A A' B r u HI M M HB).
Qed.
Lemma isox_tplx q : isox r u (tplx A q) = tplx A' (isox r u q).
Proof.
  pose proof HI as [Nu _]. destruct (lift F A q) as (B & M & HB & HM & <-). rewrite (tplx_pt F unit sqrt lt enc dec rnd two A B M HA HB HM), !isox_pt.
  assert (HB' : B / (u * u * u) <> 0).
  { intros E. apply HB. transitivity (B / (u * u * u) * (u * u * u)); [field; auto|rewrite E; ring]. }
  rewrite (tplx_pt F unit sqrt lt enc dec rnd two A' (B / (u * u * u)) _ HA' HB') by (now apply (iso_on F A A' B r u HI)).
  now rewrite !(iso_padd F two A A' B r u HI) by auto.
Qed.
Lemma isox_iter n q : isox r u (Nat.iter n (dblx A) q) = Nat.iter n (dblx A') (isox r u q).
Proof. induction n as [|n IH]; [reflexivity|]. now rewrite !iter_S, <- IH, isox_dblx. Qed.
Lemma isox_inf q : isox r u q = XInf <-> q = XInf. Proof. destruct q; split; auto; discriminate. Qed.
Lemma isox_ord n q : xord2 A n q <-> xord2 A' n (isox r u q).
Proof.
  unfold xord2. rewrite <- isox_iter, isox_inf. split; intros [H1 H2]; (split; [exact H1|]); intros i Hi E; apply (H2 i Hi).
  - rewrite <- isox_iter in E. exact (proj1 (isox_inf _) E).
  - rewrite <- isox_iter. exact (proj2 (isox_inf _) E).
Qed.
Lemma iso_rep0 (X Z : F) q : rep X Z q -> rep (X - r * Z) (u * Z) (isox r u q).
Proof.
  pose proof HI as [Nu _]. destruct q as [|x]; cbn [rep isox]; intros [H1 H2].
  - rewrite H2. split; [|ring]. replace (X - r * 0) with X by ring. exact H1.
  - split; [now apply (mul_nz F)|]. rewrite H2. field. exact Nu.
Qed.
Lemma evaliso_rep (m : miso O) (Q : pt O) q : ir m = r -> iu2 m = u -> repp Q q -> repp (eval_iso O m Q) (isox r u q).
Proof. intros Er Eu H. pose proof (iso_rep0 (pX Q) (pZ Q) q H) as G. unfold eval_iso, XLine.repp. opn. rewrite Er, Eu. exact G. Qed.
End Chg.
End XC.
