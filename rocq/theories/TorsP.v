(** The torsion of a group of points of a Montgomery curve that has n^2 elements and is killed by n = 2^a 3^b (proofs only). *)
From Coq Require Import Field Znumtheory Permutation.
From Verif Require Import Base Fermat Out Params Ops Ec Models Fld FieldOps CurveSpec IsogSpec ModelSpec XSpec WalkSpec OrderSpec FldCurve GroupP MultP IsoP FldIsog FldModels
  XLine XIso Strategy XChain CheckP XIsog WalkP OrderP CountP SquareP KumP Poly RatFun PolyEv Manin XSeq.
Set Bullet Behavior "Strict Subproofs".

(** Lists, the fibres of f having at most c elements. *)
Lemma fibre {U V} (dec : forall x y : V, {x = y} + {x <> y}) (f : U -> V) c (I : list V) : forall l : list U, NoDup l -> (forall x, In x l -> In (f x) I) ->
  (forall y l', NoDup l' -> (forall x, In x l' -> In x l /\ f x = y) -> (length l' <= c)%nat) -> (length l <= c * length I)%nat.
Proof.
  induction I as [|y I IH]; intros l N H1 H2.
  - destruct l as [|x l]; [cbn; lia|]. destruct (H1 x); now left.
  - set (b := fun x => if dec (f x) y then true else false). pose proof (filter_len b l) as E.
    assert (B1 : (length (filter b l) <= c)%nat).
    { apply (H2 y); [now apply NoDup_filter|]. intros x Hx. apply filter_In in Hx as [Hx Hb]. split; auto. unfold b in Hb. destruct (dec (f x) y); [auto|discriminate]. }
    assert (B2 : (length (filter (fun x => negb (b x)) l) <= c * length I)%nat).
    { apply IH; [now apply NoDup_filter| |].
      - intros x Hx. apply filter_In in Hx as [Hx Hb]. unfold b in Hb. destruct (dec (f x) y) as [|Ne]; [discriminate|]. destruct (H1 x Hx) as [E1|]; [now destruct Ne|auto].
      - intros z l' Nl' Hl'. apply (H2 z l' Nl'). intros x Hx. destruct (Hl' x Hx) as [Hi Hz]. split; auto. now apply filter_In in Hi. }
    cbn [length]. lia.
Qed.

Section To.
Variable F : fld.
Hypothesis two : (kadd k1 k1 : F) <> k0.
Variable A : F.
Hypothesis HA : kmul A A <> (4%F).
Variable l : list (point F).
Hypothesis Hl : all_points A k1 l.
Definition prth48 := pring F.
Add Ring PR48 : prth48.
Definition kth48 := kth F.
Add Field KF48 : kth48.
Let N1 : (k1 : F) <> k0 := one_nz F.
Notation onA := (on A k1). Notation "n ** M" := (pmul A k1 n M) (at level 40). Notation "M +. N" := (padd A k1 M N) (at level 50).
Definition pdec (M N : point F) : {M = N} + {M <> N}.
Proof.
  destruct M as [|x y], N as [|x' y']; [left; auto|right; discriminate|right; discriminate|].
  destruct (kdec x x') as [->|Nx]; [|right; congruence]. destruct (kdec y y') as [->|Ny]; [left; auto|right; congruence].
Defined.
Definition isinf (M : point F) : bool := match M with Inf => true | Aff _ _ => false end.
Lemma isinf_ok M : isinf M = true <-> M = Inf. Proof. destruct M; cbn; split; auto; discriminate. Qed.
Definition tors n : list (point F) := filter (fun M => isinf (n ** M)) l.
Lemma in_tors n M : In M (tors n) <-> onA M /\ n ** M = Inf.
Proof. unfold tors. rewrite filter_In, (proj2 Hl M), isinf_ok. reflexivity. Qed.
Lemma nd_tors n : NoDup (tors n). Proof. apply NoDup_filter, Hl. Qed.
Lemma fibre_mul m Q l' : NoDup l' -> (forall M, In M l' -> onA M /\ m ** M = Q) -> (length l' <= length (tors m))%nat.
Proof.
  intros N H. destruct l' as [|M0 l0]; [cbn; lia|]. set (l' := M0 :: l0) in *. destruct (H M0 (or_introl eq_refl)) as [H0 E0].
  pose proof (neg_on F A k1 M0 H0) as Hn. rewrite <- (map_length (fun M => M +. neg M0) l'). apply NoDup_incl_length.
  - apply NoDup_map_in; auto. intros M M' HM HM' E. destruct (H M HM) as [HM1 _]. destruct (H M' HM') as [HM1' _].
    rewrite <- (padd_cancel F two A k1 HA N1 (neg M0) M) by auto. rewrite <- (padd_cancel F two A k1 HA N1 (neg M0) M') by auto. f_equal.
    rewrite (padd_comm F two A k1 HA N1 (neg M0) M), (padd_comm F two A k1 HA N1 (neg M0) M') by auto. exact E.
  - intros M HM. apply in_map_iff in HM as (M' & <- & HM). destruct (H M' HM) as [HM1 E1]. apply in_tors. split; [now apply (padd_on F two A k1 HA N1)|].
    rewrite (pmul_padd F two A k1 HA N1), (pmul_neg F two A k1 HA N1), E1, E0 by auto. apply (padd_neg F A k1).
Qed.
Lemma mul_gen n m I : (forall M, onA M -> (n * m) ** M = Inf -> In (m ** M) I) -> (length (tors (n * m)) <= length (tors m) * length I)%nat.
Proof.
  intros H. apply (fibre pdec (fun M => m ** M)); [apply nd_tors| |].
  - intros M HM. apply in_tors in HM as [HM E]. auto.
  - intros Q l' N Hq. apply (fibre_mul m Q l' N). intros M HM. destruct (Hq M HM) as [Hi E]. apply in_tors in Hi. split; [apply Hi|auto].
Qed.
Lemma tors_mul n m : (length (tors (n * m)) <= length (tors m) * length (tors n))%nat.
Proof.
  apply mul_gen. intros M HM E. apply in_tors. split; [now apply (pmul_on F two A k1 HA N1)|]. now rewrite <- (pmul_mul F two A k1 HA N1).
Qed.
Lemma tors_strict n m Q : In Q (tors n) -> (forall M, onA M -> m ** M <> Q) -> (length (tors (n * m)) <= length (tors m) * (length (tors n) - 1))%nat.
Proof.
  intros HQ H. set (b := fun M => if pdec M Q then true else false). pose proof (filter_len b (tors n)) as E.
  assert (B : (1 <= length (filter b (tors n)))%nat).
  { assert (HI : In Q (filter b (tors n))) by (apply filter_In; split; auto; unfold b; destruct (pdec Q Q); auto). destruct (filter b (tors n)); [destruct HI|cbn; lia]. }
  pose proof (mul_gen n m (filter (fun M => negb (b M)) (tors n))) as G.
  assert (X : (length (tors (n * m)) <= length (tors m) * length (filter (fun M => negb (b M)) (tors n)))%nat).
  { apply G. intros M HM EM. apply filter_In. split.
    - apply in_tors. split; [now apply (pmul_on F two A k1 HA N1)|]. now rewrite <- (pmul_mul F two A k1 HA N1).
    - unfold b. destruct (pdec (m ** M) Q) as [E2|]; [now destruct (H M HM)|auto]. }
  eapply Nat.le_trans; [exact X|]. apply Nat.mul_le_mono_l. lia.
Qed.
Lemma tors_1 : (length (tors 1) <= 1)%nat.
Proof.
  change 1%nat with (length [Inf : point F]) at 2. apply NoDup_incl_length; [apply nd_tors|]. intros M HM. apply in_tors in HM as [_ E]. rewrite (pmul_1 F A k1) in E. left. auto.
Qed.
(** ** Points of order 2 and 3 *)
Definition xc (M : point F) : F := match M with Inf => k0 | Aff x _ => x end.
Definition aff n := filter (fun M => negb (isinf M)) (tors n).
Lemma tors_aff n : (length (tors n) <= 1 + length (aff n))%nat.
Proof.
  pose proof (filter_len isinf (tors n)) as E. fold (aff n) in E. assert (length (filter isinf (tors n)) <= 1)%nat; [|lia].
  change 1%nat with (length [Inf : point F]). apply NoDup_incl_length; [apply NoDup_filter, nd_tors|]. intros M HM. apply filter_In in HM as [_ H]. apply isinf_ok in H. left. auto.
Qed.
Lemma in_aff n M : In M (aff n) -> exists x y, M = Aff x y /\ onA (Aff x y) /\ n ** (Aff x y) = Inf.
Proof. unfold aff. rewrite filter_In, in_tors. intros [[H1 H2] H3]. destruct M as [|x y]; [discriminate|]. exists x, y. auto. Qed.
Lemma ker_2 x y : onA (Aff x y) -> 2 ** Aff x y = Inf -> y = k0.
Proof.
  intros H E. rewrite (pmul_2 F A k1) in E. cbn [padd] in E. destruct (kdec x x); [|contradiction]. destruct (kdec (kadd y y) k0) as [Ey|]; [|discriminate].
  apply (mul_cancel F) with (kadd k1 k1 : F); [exact two|]. transitivity (kadd y y); [ring|]. rewrite Ey. ring.
Qed.
Lemma at_fx x : at_ (px * px * px + pC A * (px * px) + px)%P x = fx A x.
Proof. unfold fx. rewrite !ev_a, !ev_m, !ev_x, ev_C by apply id_hom. reflexivity. Qed.
Lemma sz_small (P : poly F) n : (sz F P <= n)%nat -> forall c : F, (sz F (pC c * P) <= n)%nat.
Proof. intros H c. destruct n. { assert (E : sz F P = 0%nat) by lia. apply sz_z in E. rewrite E. replace (pC c * pO)%P with (pO : poly F) by ring. rewrite sz_O. lia. }
  pose proof (sz_mb F (pC c) P 1 (S n)) as B. assert (sz F (pC c * P)%P <= 1 + S n - 1)%nat; [|lia]. apply B; auto. apply sz_le. intros [|i] Hi; [lia|]. now rewrite cf_C. Qed.
Lemma sz_w n : sz F (pw px n) = S n. Proof. destruct (pw_sz F px n (x_nz F)) as (_ & -> & _). rewrite sz_x. lia. Qed.
Lemma bound2 : (length (tors 2) <= 4)%nat.
Proof.
  pose proof (tors_aff 2) as B. set (P := (px * px * px + pC A * (px * px) + px)%P : poly F).
  assert (SP : sz F P = 4%nat).
  { assert (S4 : (sz F (pC A * pw px 2 + pw px 1)%P < sz F (pw px 3 : poly F))%nat).
    { rewrite sz_w. apply Nat.le_lt_trans with 3%nat; [|lia]. apply sz_a; [apply sz_small|]; rewrite sz_w; lia. }
    destruct (sz_lt F _ _ S4) as [S5 _]. rewrite sz_w in S5. rewrite <- S5. f_equal. unfold P. cbn [pw]. ring. }
  assert (NP : P <> pO). { intros E. rewrite E, sz_O in SP. discriminate. }
  pose proof (root_bound F (map xc (aff 2)) P NP) as R. rewrite map_length, SP in R. assert (length (aff 2) < 4)%nat; [|lia]. apply R.
  - apply NoDup_map_in; [|apply NoDup_filter, nd_tors]. intros M M' HM HM' E. apply in_aff in HM as (x & y & -> & H1 & H2). apply in_aff in HM' as (x' & y' & -> & H1' & H2').
    rewrite (ker_2 x y H1 H2), (ker_2 x' y' H1' H2'). cbn [xc] in E. now rewrite E.
  - intros a Ha. apply in_map_iff in Ha as (M & <- & HM). apply in_aff in HM as (x & y & -> & H1 & H2). cbn [xc]. unfold P. rewrite at_fx. rewrite (ker_2 x y H1 H2) in H1. cbn [on] in H1. rewrite <- H1. ring.
Qed.
Definition P3 : poly F := (pC (3%F) * pw px 4 + pC (4%F) * (pC A * pw px 3) + pC (2%F) * (pC (3%F) * pw px 2) - pw px 0)%P.
Lemma at_P3 x : at_ P3 x = div3 A x.
Proof. unfold P3, div3. rewrite ev_s, !ev_a, !ev_m, !ev_w, !ev_x, !ev_C by apply id_hom. unfold idF. cbn [kpow]. ring. Qed.
Lemma bound3 : (length (tors 3) <= 9)%nat.
Proof.
  pose proof (tors_aff 3) as B.
  assert (SP : (sz F P3 <= 5)%nat).
  { unfold P3. apply sz_s; [|rewrite sz_w; lia]. repeat apply sz_a; repeat apply sz_small; rewrite sz_w; lia. }
  assert (NP : P3 <> pO). { intros E. pose proof (at_P3 k0) as V. rewrite E, ev_0 in V. unfold div3 in V. apply N1. transitivity (kopp (kopp k1) : F); [ring|].
    transitivity (kopp (k0 : F)); [|ring]. f_equal. rewrite V. ring. }
  pose proof (root_bound F (nodup kdec (map xc (aff 3))) P3 NP (NoDup_nodup _ _)) as R.
  assert (R2 : (length (nodup kdec (map xc (aff 3))) < sz F P3)%nat).
  { apply R. intros a Ha. apply nodup_In, in_map_iff in Ha as (M & <- & HM). apply in_aff in HM as (x & y & -> & H1 & H2). cbn [xc]. rewrite at_P3.
    pose proof (tplx_pt F (k0 : F) (fun x : F => x) (fun _ _ : F => false) (fun _ : F => @nil Z) (fun _ : list Z => (k0 : F)) (fun _ : tape => @NoTape (F * tape)) two A k1 (Aff x y) HA N1 H1) as T. rewrite <- (pmul_3 F A k1) in T. rewrite H2 in T. cbn [xof tplx] in T. destruct (kdec (div3 A x) k0); [auto|discriminate]. }
  assert (C : (length (aff 3) <= 2 * length (nodup kdec (map xc (aff 3))))%nat); [|lia].
  apply (fibre kdec xc); [apply NoDup_filter, nd_tors| |].
  - intros M HM. apply nodup_In. now apply in_map.
  - intros a l' Nl' H. destruct l' as [|M0 l0]; [cbn; lia|]. set (l' := M0 :: l0) in *. destruct (H M0 (or_introl eq_refl)) as [H0 E0].
    change 2%nat with (length [M0; neg M0]). apply NoDup_incl_length; auto. intros M HM. destruct (H M HM) as [HM1 EM].
    apply in_aff in H0 as (x & y & -> & H1 & H2). apply in_aff in HM1 as (x' & y' & -> & H1' & H2'). cbn [xc] in *.
    destruct (same_x F A k1 (Aff x y) (Aff x' y') HA N1 H1 H1') as [E|E]; [cbn [xof]; congruence|left; auto|right; left; auto].
Qed.
Lemma tors_bound a b : (length (tors (2 ^ a * 3 ^ b)) <= 4 ^ a * 9 ^ b)%nat.
Proof.
  induction a as [|a IH].
  - cbn [Nat.pow Nat.mul]. rewrite Nat.add_0_r. rewrite Nat.add_0_r. induction b as [|b IH]; [apply tors_1|].
    replace (3 ^ S b)%nat with (3 ^ b * 3)%nat by (cbn [Nat.pow]; lia). eapply Nat.le_trans; [apply tors_mul|]. cbn [Nat.pow]. replace (9 * 9 ^ b)%nat with (9 * 9 ^ b)%nat by lia.
    apply Nat.mul_le_mono; [apply bound3|apply IH].
  - replace (2 ^ S a * 3 ^ b)%nat with (2 ^ a * 3 ^ b * 2)%nat by (cbn [Nat.pow]; lia). eapply Nat.le_trans; [apply tors_mul|].
    replace (4 ^ S a * 9 ^ b)%nat with (4 * (4 ^ a * 9 ^ b))%nat by (cbn [Nat.pow]; lia). apply Nat.mul_le_mono; [apply bound2|apply IH].
Qed.
(** ** All the torsion is there *)
Variables a b : nat.
Notation n := (2 ^ S a * 3 ^ b)%nat.
Hypothesis Hlen : length l = (n * n)%nat.
Hypothesis Hkill : forall M, onA M -> n ** M = Inf.
Lemma tors_all : length (tors n) = (4 * (4 ^ a * 9 ^ b))%nat.
Proof.
  assert (E : tors n = l).
  { unfold tors. assert (G : forall l', (forall M, In M l' -> In M l) -> filter (fun M => isinf (n ** M)) l' = l').
    { induction l' as [|M l' IH]; intros H; [reflexivity|]. cbn [filter]. rewrite (proj2 (isinf_ok (n ** M))) by (apply Hkill, Hl, H; now left). f_equal. apply IH. intros; apply H; now right. }
    apply G. auto. }
  rewrite E, Hlen. pose proof (Nat.pow_mul_l 2 2 a) as P2. pose proof (Nat.pow_mul_l 3 3 b) as Q3. change (2 * 2)%nat with 4%nat in P2. change (3 * 3)%nat with 9%nat in Q3. rewrite P2, Q3. cbn [Nat.pow]. ring.
Qed.
Lemma split_n : n = (2 ^ a * 3 ^ b * 2)%nat. Proof. cbn [Nat.pow]. lia. Qed.
Lemma k_pos : (1 <= 4 ^ a * 9 ^ b)%nat.
Proof. assert (4 ^ a <> 0 /\ 9 ^ b <> 0)%nat as [X Y] by (split; apply Nat.pow_nonzero; lia). destruct (4 ^ a * 9 ^ b)%nat eqn:E; [|lia]. apply Nat.eq_mul_0 in E. lia. Qed.
Theorem full2 : length (tors 2) = 4%nat.
Proof.
  pose proof bound2 as B. pose proof (tors_mul (2 ^ a * 3 ^ b) 2) as T. rewrite <- split_n, tors_all in T. pose proof (tors_bound a b) as U. pose proof k_pos as K.
  set (t := length (tors 2)) in *. set (k := (4 ^ a * 9 ^ b)%nat) in *. set (z := length (tors (2 ^ a * 3 ^ b))) in *. clearbody t k z. clear - B T U K.
  assert (t * z <= t * k)%nat by (apply Nat.mul_le_mono_l; auto). assert (4 <= t)%nat; [|lia]. apply (Nat.mul_le_mono_pos_r 4 t k); lia.
Qed.
Theorem halve Q : onA Q -> (2 ^ a * 3 ^ b) ** Q = Inf -> exists M, onA M /\ M +. M = Q.
Proof.
  intros HQ EQ. destruct (existsb (fun M => if pdec (M +. M) Q then true else false) l) eqn:E.
  - apply existsb_exists in E as (M & HM & E). exists M. split; [now apply Hl|]. destruct (pdec (M +. M) Q); [auto|discriminate].
  - exfalso. assert (NQ : forall M, onA M -> 2 ** M <> Q).
    { intros M HM X. rewrite (pmul_2 F A k1) in X. assert (existsb (fun M => if pdec (M +. M) Q then true else false) l = true) as Y; [|congruence].
      apply existsb_exists. exists M. split; [now apply Hl|]. destruct (pdec (M +. M) Q); auto. }
    pose proof (tors_strict (2 ^ a * 3 ^ b) 2 Q ltac:(apply in_tors; auto) NQ) as T. rewrite <- split_n, tors_all, full2 in T. pose proof (tors_bound a b). pose proof k_pos. lia.
Qed.
End To.
