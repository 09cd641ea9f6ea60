(** Verify and what it calls: no undefined behaviour (proofs over a field). *)
From Coq Require Import Field.
From Verif Require Import Base Out Params Fp Poik Hashing HashSpec HashingP Codec Ops Ec Models Proto Fld FieldOps CurveSpec IsogSpec ModelSpec XSpec ProtoSpec WalkSpec FldCurve GroupP MultP IsoP FldIsog FldModels
  XLine XIso Strategy XChain CheckP XIsog WalkP ChainP VerifyP WordModels OpenP ParamP SafeSpec.
Set Bullet Behavior "Strict Subproofs".

Lemma defined_bind {A B} (m : out A) (f : A -> out B) : defined m -> (forall a, m = Ok a -> defined (f a)) -> defined (bind m f).
Proof. destruct m as [a| | | |]; cbn [bind defined]; intros H G; auto. Qed.

Lemma safe_of_defined {A} K fuel (o : out A) : defined o -> safe_run K fuel o. Proof. destruct o; cbn; tauto. Qed.
Lemma safe_bind {A B} K fuel (m : out A) (f : A -> out B) : safe_run K fuel m -> (forall a, m = Ok a -> safe_run K fuel (f a)) -> safe_run K fuel (bind m f).
Proof. destruct m as [a| | | |]; cbn [bind safe_run]; intros H G; auto. Qed.
Lemma Challenge_cases K fuel comm : (exists r, Challenge K fuel comm (repeat 0 (reps K)) = Ok r /\ Forall (fun t => In t [-1; 0; 1]) r) \/ Challenge K fuel comm (repeat 0 (reps K)) = NoFuel.
Proof.
  unfold Challenge. generalize (Keccak.shake256_absorb (repeat 0 25) (challenge_input comm)). intros st.
  pose proof (ch_loop_ok (reps K) fuel 0 st [] (repeat 0 (reps K)) eq_refl (Nat.le_0_l _) (repeat_length _ _)) as E. cbn [app] in E. rewrite E.
  destruct (_ =? _)%nat; [left|right; reflexivity]. eexists. split; [reflexivity|]. apply Forall_firstn, trit_stream_range.
Qed.
Lemma Challenge_safe K fuel comm : safe_run K fuel (Challenge K fuel comm (repeat 0 (reps K))).
Proof. destruct (Challenge_cases K fuel comm) as [(r & -> & _)|E]; [exact I|]. rewrite E. exists comm. exact E. Qed.
(** ** Random choices, over any operations *)
Section Gen.
Variable O : fops.
Variable P : params.
Hypothesis rand_short : forall tp x tp', o_rand O tp = Ok (x, tp') -> (length tp' < length tp)%nat.
Hypothesis rand_def : forall tp, defined (o_rand O tp).
Lemma ok_pair {T U} (a a' : T) (b b' : U) : Ok (a, b) = Ok (a', b') -> a = a' /\ b = b'. Proof. intros H. split; congruence. Qed.
Lemma point_loop_def A f : forall tp, (length tp < f)%nat ->
  defined (random_point_loop O f A tp) /\ forall R tp', random_point_loop O f A tp = Ok (R, tp') -> (length tp' < length tp)%nat.
Proof.
  induction f as [|f IH]; intros tp L; [lia|]. cbn [random_point_loop]. pose proof (rand_def tp) as D.
  destruct (o_rand O tp) as [[x t1]| | | |] eqn:E; cbn [bind]; try (split; [exact D|discriminate]). apply rand_short in E.
  destruct (fp2sqrt _ _ _) as [y [|]]; [split; [exact I|]; intros R tp' H; apply ok_pair in H as [_ <-]; exact E|].
  destruct (IH t1) as [H1 H2]; [lia|]. split; [exact H1|]. intros R tp' H. apply H2 in H. lia.
Qed.
Lemma point_def A tp : defined (random_point O A tp). Proof. apply point_loop_def. lia. Qed.
Lemma point_short A tp R tp' : random_point O A tp = Ok (R, tp') -> (length tp' < length tp)%nat.
Proof. apply (proj2 (point_loop_def A (S (length tp)) tp ltac:(lia))). Qed.
Lemma pick_def e2 e3 l2 A k : forall tp, defined (rpwo_pick O e2 e3 k l2 A tp).
Proof.
  induction k as [|k IH]; intros tp; cbn [rpwo_pick]; [exact I|]. destruct (rp_consts O A) as [[a b] c].
  apply defined_bind; [apply point_def|]. intros [R t1] _. destruct (is0 O _); [apply IH|exact I].
Qed.
Lemma pick_short e2 e3 l2 A k : forall tp R tp', rpwo_pick O e2 e3 k l2 A tp = Ok (R, tp') -> (length tp' < length tp)%nat.
Proof.
  induction k as [|k IH]; intros tp R tp'; cbn [rpwo_pick]; [discriminate|]. destruct (rp_consts O A) as [[a b] c].
  destruct (random_point O A tp) as [[R1 t1]| | | |] eqn:E; cbn [bind]; try discriminate. apply point_short in E.
  destruct (is0 O _); intros H; [apply IH in H; lia|apply ok_pair in H as [_ <-]; exact E].
Qed.
Lemma order_def l2 A k : forall Q e, defined (rpwo_order O k l2 A Q e).
Proof.
  induction k as [|k IH]; intros Q e; cbn [rpwo_order]; [exact I|]. destruct (rp_consts O A) as [[a b] c]. cbv zeta. destruct (is0 O _); [exact I|apply IH].
Qed.
Lemma rpwo_def e2 e3 A l2 tp : defined (random_point_with_order O e2 e3 A l2 tp).
Proof.
  unfold random_point_with_order. apply defined_bind; [apply pick_def|]. intros [R t1] _. apply defined_bind; [apply order_def|]. intros [e Q] _. exact I.
Qed.
Lemma rpwo_short e2 e3 A l2 tp R e Q tp' : random_point_with_order O e2 e3 A l2 tp = Ok (R, e, Q, tp') -> (length tp' < length tp)%nat.
Proof.
  unfold random_point_with_order.
  destruct (rpwo_pick _ _ _ _ _ _ _) as [[R0 t1]| | | |] eqn:E; cbn [bind]; try discriminate.
  destruct (rpwo_order _ _ _ _ _ _) as [[e0 Q0]| | | |]; cbn [bind]; try discriminate. intros H. apply ok_pair in H as [_ <-]. exact (pick_short _ _ _ _ _ _ _ _ E).
Qed.
Lemma back_def A R f : forall tp, (length tp < f)%nat -> defined (back_B_loop O P f A R tp).
Proof.
  induction f as [|f IH]; intros tp L; [lia|]. cbn [back_B_loop]. apply defined_bind; [apply rpwo_def|]. intros [[[R0 e] b0] t1] ER. apply rpwo_short in ER.
  destruct (point_equal O b0 R); [apply IH; lia|exact I].
Qed.
Lemma Random_Point_def E l2 av tp : defined (Random_Point_AB O P E l2 av tp).
Proof.
  unfold Random_Point_AB. generalize (fp2div O (cA E) (cC E)). intros A. generalize n9999. intros k. revert tp. induction k as [|k IH]; intros tp; cbn [Random_Point_loop]; [exact I|].
  apply defined_bind; [apply rpwo_def|]. intros [[[R0 e] b0] t1] _. cbv zeta. destruct (Nat.ltb _ _); [apply IH|].
  destruct (match av with Some a => point_equal O b0 a | None => false end); [apply IH|exact I].
Qed.
Lemma check_def junk E k : forall m2 m3 tp, defined (check_loop O P junk k E m2 m3 tp).
Proof.
  induction k as [|k IH]; intros m2 m3 tp; cbn [check_loop]; [exact I|]. destruct (AC_to_AAC24 O E) as [[a b] c].
  apply defined_bind; [apply point_def|]. intros [R t1] _. cbv zeta.
  destruct (order_loop _ _ _ _ _) as [cur2 Q2]. destruct (negb _); [exact I|]. destruct (proves_order _ _ _); [exact I|].
  destruct (order_loop _ _ _ _ _) as [cur3 Q3]. destruct (negb _); [exact I|]. destruct (proves_order _ _ _); [exact I|]. apply IH.
Qed.
End Gen.

Section SP.
Variable F : fld.
Variables (unit : F) (sqrt : F -> F) (lt : F -> F -> bool) (enc : F -> list Z) (dec : list Z -> F) (rnd : tape -> out (F * tape)).
Local Notation O := (fld_ops F unit sqrt lt enc dec rnd).
Hypothesis two : (kadd k1 k1 : F) <> k0.
Hypothesis sqrt_ok : forall x z : F, x = kmul z z -> kmul (sqrt x) (sqrt x) = x.
Hypothesis lt_irr : forall x, lt x x = false.
Hypothesis lt_trans : forall x y z, lt x y = true -> lt y z = true -> lt x z = true.
Hypothesis lt_total : forall x y, lt x y = false -> lt y x = false -> x = y.
Local Open Scope fld_scope.
Variable SS : F -> Prop.
Hypothesis HSS : isog_class SS.
Variable K : pok.
Notation P := (fpar K).
Hypothesis HS : strat_good P.
Variable junk : pt O.
Notation check := (check_packed K O junk).
Hypothesis accept_ss : forall a tp tp', check a tp = Ok (true, tp') -> SS (dec a).
Hypothesis rand_short : forall tp x tp', rnd tp = Ok (x, tp') -> (length tp' < length tp)%nat.
Hypothesis rand_def : forall tp, defined (rnd tp).
Lemma packed_def a tp : defined (check a tp).
Proof. exact (check_def O P rand_short rand_def junk (unpack_curve O a) n9999 (no_torsion O) (no_torsion O) tp). Qed.
Lemma Chain_A_def a xs tp : SS (dec a) -> xs <> [] -> defined (Unpack_Chain_A K O junk a xs tp).
Proof.
  intros HA Nx. pose proof (packed_def a tp) as D. destruct (check a tp) as [[ok t1]| | | |] eqn:E.
  - destruct (Unpack_Chain_A_total F unit sqrt lt enc dec rnd two sqrt_ok lt_irr lt_trans lt_total SS HSS K HS junk a xs tp ok t1 HA Nx E) as (o & ->). exact I.
  - unfold Unpack_Chain_A. rewrite E. exact I.
  - unfold Unpack_Chain_A. rewrite E. exact I.
  - destruct D.
  - destruct D.
Qed.
Lemma Chain_B_def a xs tp : SS (dec a) -> defined (Unpack_Chain_B K O junk a xs tp).
Proof.
  intros HA. unfold Unpack_Chain_B. apply defined_bind; [apply packed_def|]. intros [ok t1] _. destruct xs as [|x xs]; [exact I|].
  assert (C1 : cC (@mkCurve O (dec a) 1) <> 0) by (cbn; apply (one_nz F)).
  assert (A1 : cA (@mkCurve O (dec a) 1) = dec a * cC (@mkCurve O (dec a) 1)) by (cbn; exact (CheckP.one_r F (dec a))).
  change (unpack_curve O a) with (@mkCurve O (dec a) 1).
  destruct (Isogeny_B_step F unit sqrt lt enc dec rnd two sqrt_ok lt_irr lt_trans lt_total SS HSS K HS (@mkCurve O (dec a) 1) (dec a) x None XInf true t1 C1 A1 HA I)
      as [[No EN]|(Ho & A' & r' & Q' & E' & A1' & R1 & k1 & Hch & HA' & HC' & HE' & HQ' & HN & Hinf & Hlast & HA1' & Hk1 & HR1 & EI)].
  { rewrite EN. exact I. }
  rewrite EI. clear EI. pose proof (back_def O P rand_short rand_def A1' R1 (S (length t1)) t1 ltac:(lia)) as D.
  destruct (back_B_loop O P (S (length t1)) A1' R1 t1) as [[b t2]| | | |] eqn:EB; cbn [bind omap]; try exact D. clear D.
  apply (back_B_ok F unit sqrt lt enc dec rnd two sqrt_ok P A1' R1 k1 HA1' HR1) in EB as (y & Ny & Hy & Hb).
  destruct (two_ker3 F two A1' k1 y Hk1 Hy Ny) as (N3 & Nk & Ey).
  set (d' := XF (- (1) / (3 * k1)) : xl F) in *.
  assert (Hb' : repp F unit sqrt lt enc dec rnd (eval_3_isog O (snd (get_3_isog O R1)) b) d').
  { rewrite <- Ey. exact (ev3_rep F unit sqrt lt enc dec rnd two A1' HA1' k1 Hk1 R1 b (XF y) HR1 Hb). }
  assert (EA' : A' = A3 A1' k1).
  { apply (chain3_last F two (e3 P - 1) (dec a) (xpt F dec x) XInf A1' k1 A' XInf (ss_ns F SS HSS _ HA) (xord3_ord F unit sqrt lt enc dec rnd sqrt_ok lt_irr lt_trans lt_total K HS _ _ Ho) Hlast).
    pose proof HS as (_ & He3 & _). replace (S (e3 P - 1)) with (e3 P) by lia. exact Hinf. }
  assert (Dt : tplx A' d' = XInf).
  { rewrite EA', <- Ey, <- (phi3_tplx F unit sqrt lt enc dec rnd two A1' HA1' k1 Hk1). unfold ker3 in Hy. rewrite Hy. reflexivity. }
  destruct (chain_B_loop_ok F unit sqrt lt enc dec rnd two sqrt_ok lt_irr lt_trans lt_total SS HSS K HS xs t2 E' A' _ d' d' HC' HE' HA' Hb') as (o' & E3 & _); [right; split; [auto|]; split; [auto|discriminate]|].
  rewrite E3. cbn [bind]. destruct o' as [[E4 b4]|]; exact I.
Qed.
Lemma Response_def prf r tp : (0 < width K)%nat -> SS (dec (p_E0 prf)) -> SS (dec (p_E1 prf)) -> defined (Unpack_Response K O junk prf r tp).
Proof.
  intros Hw H0 H1. unfold Unpack_Response. cbv zeta. destruct (_ =? _)%Z.
  { apply defined_bind; [now apply Chain_B_def|]. intros [[E2|] t] _; exact I. }
  destruct (_ =? _)%Z.
  { apply defined_bind; [apply packed_def|]. intros [[|] t] EC; [|exact I]. apply defined_bind; [apply Chain_A_def|].
    - exact (accept_ss _ _ _ EC).
    - unfold bottom_xs. destruct (width K); [lia|discriminate].
    - intros [[E3|] t'] _; exact I. }
  destruct (_ =? _)%Z; [|exact I]. apply defined_bind; [now apply Chain_B_def|]. intros [[E2|] t] _; exact I.
Qed.
Lemma responses_def prf rs : (0 < width K)%nat -> SS (dec (p_E0 prf)) -> SS (dec (p_E1 prf)) -> forall tps i, defined (responses K O junk prf tps i rs).
Proof.
  intros Hw H0 H1. induction rs as [|r rs IH]; intros tps i; cbn [responses]; [exact I|]. apply defined_bind; [now apply Response_def|]. intros [[c|] t] _; [|exact I].
  apply defined_bind; [apply IH|]. intros cs _. exact I.
Qed.
End SP.
