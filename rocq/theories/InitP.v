(** The curve y^2 = x^3 + x has (p+1)^2 points over GF(p^2), p = 3 mod 4 (proofs only, no code of /repo is modelled here). *)
From Coq Require Import Field Znumtheory Permutation.
From Verif Require Import Base Fermat Out Params Ops Ec Models Fld FieldOps CurveSpec IsogSpec ModelSpec XSpec WalkSpec OrderSpec SupSpec FldCurve GroupP MultP IsoP FldIsog FldModels
  XLine XIso Strategy XChain CheckP XIsog WalkP OrderP CountP SquareP KumP Poly RatFun PolyEv Manin XSeq Hasse TorsP ClassP.
Set Bullet Behavior "Strict Subproofs".

(** ** An endomorphism of the group of points: number of points = size of the image times size of the kernel *)
Section Fib.
Variable F : fld.
Hypothesis two : (kadd k1 k1 : F) <> k0.
Variables A B : F.
Hypothesis HA : (A * A <> 4)%F.
Hypothesis HB : B <> k0.
Notation on := (on A B). Notation padd := (padd A B).
Notation pt_dec := (pt_dec F).
Variable psi : point F -> point F.
Hypothesis psi_on : forall M, on M -> on (psi M).
Hypothesis psi_add : forall M N, on M -> on N -> psi (padd M N) = padd (psi M) (psi N).
Variable l : list (point F).
Hypothesis Hl : all_points A B l.
Variable ker : list (point F).
Hypothesis ker_nd : NoDup ker.
Hypothesis ker_in : forall M, In M ker <-> on M /\ psi M = Inf.
Definition im : list (point F) := nodup pt_dec (map psi l).
Lemma im_nd : NoDup im. Proof. apply NoDup_nodup. Qed.
Lemma im_in N : In N im <-> exists M, on M /\ psi M = N.
Proof.
  unfold im. rewrite nodup_In, in_map_iff. split; intros (M & H1 & H2); exists M; (split; auto).
  - now apply (proj2 Hl).
  - now apply (proj2 Hl).
Qed.
Lemma p_on M N : on M -> on N -> on (padd M N). Proof. apply (padd_on F two A B HA HB). Qed.
Lemma p_assoc M N R : on M -> on N -> on R -> padd (padd M N) R = padd M (padd N R). Proof. apply (padd_assoc F two A B HA HB). Qed.
Lemma psi_inf : psi Inf = Inf.
Proof. apply (padd_inf_l_eq F two A B HA HB (psi Inf)); try (apply psi_on; exact I). rewrite <- psi_add by exact I. reflexivity. Qed.
Lemma psi_neg M : on M -> psi (neg M) = neg (psi M).
Proof.
  intros H. apply (padd_opp_eq F two A B HA HB); [now apply psi_on|apply psi_on; now apply (neg_on F)|].
  rewrite <- psi_add; [|auto|now apply (neg_on F)]. rewrite (padd_neg F A B). apply psi_inf.
Qed.
Definition rep (N : point F) : point F := match find (fun M => if pt_dec (psi M) N then true else false) l with Some M => M | None => Inf end.
Lemma rep_ok N : In N im -> on (rep N) /\ psi (rep N) = N.
Proof.
  intros H. apply im_in in H as (M & H1 & H2). unfold rep. destruct (find _ l) as [M'|] eqn:E.
  - apply find_some in E as [E1 E2]. apply (proj2 Hl) in E1. destruct (pt_dec (psi M') N); [auto|discriminate].
  - exfalso. apply (proj2 Hl) in H1. pose proof (find_none _ _ E M H1) as X. cbn beta in X. destruct (pt_dec (psi M) N); [discriminate|contradiction].
Qed.
Lemma back M N : on M -> on N -> padd N (padd M (neg N)) = M.
Proof.
  intros H1 H2. pose proof (neg_on F A B N H2) as H3. rewrite <- p_assoc by auto. rewrite (padd_comm F two A B HA HB N M) by auto.
  rewrite p_assoc by auto. rewrite (padd_neg F A B). apply (padd_inf_r' F A B).
Qed.
Lemma le1 : (length l <= length im * length ker)%nat.
Proof.
  set (h := fun M => (psi M, padd M (neg (rep (psi M))))). rewrite <- (map_length h l), <- (prod_length im ker). apply NoDup_incl_length.
  - apply NoDup_map_in; [|apply Hl]. intros M N HM HN E. apply (proj2 Hl) in HM. apply (proj2 Hl) in HN. unfold h in E.
    assert (E1 : psi M = psi N) by congruence. assert (E2 : padd M (neg (rep (psi M))) = padd N (neg (rep (psi N)))) by congruence.
    assert (I : In (psi M) im) by (apply im_in; eauto). destruct (rep_ok _ I) as [R1 R2].
    rewrite <- (back M _ HM R1), <- (back N _ HN R1). f_equal. rewrite E2, E1. reflexivity.
  - intros x Hx. apply in_map_iff in Hx as (M & <- & HM). apply (proj2 Hl) in HM. assert (I : In (psi M) im) by (apply im_in; eauto). destruct (rep_ok _ I) as [R1 R2].
    apply in_prod; [exact I|]. apply ker_in. pose proof (neg_on F A B _ R1) as H3. split; [now apply p_on|]. rewrite psi_add, psi_neg, R2 by auto. apply (padd_neg F A B).
Qed.
Lemma le2 : (length im * length ker <= length l)%nat.
Proof.
  set (h := fun x => padd (rep (fst x)) (snd x)). rewrite <- (prod_length im ker), <- (map_length h). apply NoDup_incl_length.
  - apply NoDup_map_in; [|apply NoDup_prod; [apply im_nd|apply ker_nd]]. intros [a b] [c d] H1 H2 E. unfold h in E. cbn [fst snd] in E.
    apply in_prod_iff in H1 as [Ia Ib]. apply in_prod_iff in H2 as [Ic Id]. apply ker_in in Ib as [Ib1 Ib2]. apply ker_in in Id as [Id1 Id2].
    destruct (rep_ok _ Ia) as [Ra1 Ra2]. destruct (rep_ok _ Ic) as [Rc1 Rc2].
    assert (EQ : a = c). { apply (f_equal psi) in E. rewrite !psi_add, Ra2, Rc2, Ib2, Id2 in E by auto. now rewrite !(padd_inf_r' F A B) in E. }
    subst c. f_equal. apply (f_equal (padd (neg (rep a)))) in E. now rewrite !(padd_cancel F two A B HA HB) in E by auto.
  - intros x Hx. apply in_map_iff in Hx as ([a b] & <- & H). apply in_prod_iff in H as [Ia Ib]. apply ker_in in Ib as [Ib1 Ib2]. destruct (rep_ok _ Ia) as [R1 _].
    apply (proj2 Hl). unfold h. cbn [fst snd]. now apply p_on.
Qed.
Lemma fib : length l = (length im * length ker)%nat. Proof. apply Nat.le_antisymm; [apply le1|apply le2]. Qed.
(** The image lies in a subgroup S: its size divides the size of S. *)
Lemma im_div S : NoDup S -> (forall M, In M im -> In M S) -> (forall M, In M S -> on M) -> (forall M N, In M S -> In N S -> In (padd M N) S) ->
  Nat.divide (length im) (length S).
Proof.
  intros N1 H1 H2 H3. apply (lagrange _ pt_dec padd neg Inf on) with (n := length S); auto.
  - exact p_on.
  - apply (neg_on F A B).
  - exact p_assoc.
  - intros x _. destruct x; reflexivity.
  - intros x _. apply (padd_neg' F A B).
  - intros x _. apply (padd_neg F A B).
  - apply im_nd.
  - apply im_in. exists Inf. split; [exact I|apply psi_inf].
  - intros h h' I I'. apply im_in in I as (M & HM & <-). apply im_in in I' as (N & HN & <-). apply im_in. exists (padd N (neg M)).
    pose proof (neg_on F A B M HM). split; [now apply p_on|]. rewrite psi_add, psi_neg; auto.
Qed.
End Fib.
(** ** Maps of points *)
Section Pm.
Variable F : fld.
Variable f : F -> F.
Hypothesis Hf : fhom f.
Variables A B : F.
Hypothesis HA : f A = A. Hypothesis HB : f B = B.
Hypothesis two : (kadd k1 k1 : F) <> k0.
Hypothesis B0 : B <> k0.
Local Open Scope fld_scope.
Definition kth54 := kth F.
Add Field KF54 : kth54.
Definition pmap (M : point F) : point F := match M with Inf => Inf | Aff x y => Aff (f x) (f y) end.
Ltac hh := repeat rewrite ?(hadd F F f Hf), ?(hmul F F f Hf), ?(hsub F F f Hf), ?(hopp F F f Hf), ?(h0 F F f Hf), ?(h1 F F f Hf), ?HA, ?HB.
Lemma pmap_on M : on A B M -> on A B (pmap M).
Proof. destruct M as [|x y]; [auto|]. cbn [pmap on]. intros E. apply (f_equal f) in E. unfold fx in *. revert E. hh. auto. Qed.
Lemma pmap_neg M : pmap (neg M) = neg (pmap M). Proof. destruct M as [|x y]; [auto|]. cbn [pmap neg]. now rewrite (hopp F F f Hf). Qed.
Lemma pmap_chord s x1 y1 x2 : pmap (chord A B s x1 y1 x2) = chord A B (f s) (f x1) (f y1) (f x2).
Proof. unfold chord. cbv zeta. cbn [pmap]. hh. reflexivity. Qed.
Lemma pmap_add M N : on A B M -> on A B N -> pmap (padd A B M N) = padd A B (pmap M) (pmap N).
Proof.
  destruct M as [|x1 y1]; [reflexivity|]. destruct N as [|x2 y2]; [reflexivity|]. intros H1 H2. cbn [padd pmap].
  destruct (kdec x1 x2) as [E|NE].
  - subst x2. destruct (kdec (f x1) (f x1)) as [_|X]; [|contradiction].
    destruct (kdec (y1 + y2) 0) as [E0|N0].
    + destruct (kdec (f y1 + f y2) 0) as [_|X]; [reflexivity|]. exfalso. apply X. rewrite <- (hadd F F f Hf), E0. apply (h0 F F f Hf).
    + destruct (kdec (f y1 + f y2) 0) as [X|_].
      { exfalso. apply N0. apply (hinj F F f Hf). rewrite (hadd F F f Hf), X. symmetry. apply (h0 F F f Hf). }
      rewrite pmap_chord. f_equal. rewrite (hdiv F F f Hf); [hh; reflexivity|].
      apply (mul_nz F); [exact two|]. apply (mul_nz F); [exact B0|]. intros Z. subst y1. cbn [on] in H1, H2.
      assert (Y : y2 * y2 = 0).
      { assert (E : B * (y2 * y2) = B * (0 * 0)) by (rewrite H1, H2; reflexivity). transitivity (B * (y2 * y2) / B); [change (@eq (Fld.K F) (y2 * y2) (B * (y2 * y2) / B)); field; auto|]. rewrite E. change (@eq (Fld.K F) (B * (0 * 0) / B) 0). field. auto. }
      apply N0. destruct (kdec y2 0) as [->|NY]; [change (@eq (Fld.K F) (0 + 0) 0); ring|]. exfalso. now apply (mul_nz F y2 y2 NY NY).
  - destruct (kdec (f x1) (f x2)) as [X|_]; [exfalso; apply NE; now apply (hinj F F f Hf)|].
    rewrite pmap_chord. f_equal. rewrite (hdiv F F f Hf); [hh; reflexivity|]. apply (sub_nz F). intros X. now apply NE.
Qed.
End Pm.
(** ** The curve *)
Section Z0.
Variable F : fld.
Hypothesis two : (kadd k1 k1 : F) <> k0.
Variable elems : list F.
Hypothesis ND : NoDup elems.
Hypothesis Hall : forall x : F, In x elems.
Variables p m : nat.
Hypothesis Hp : prime (Z.of_nat p).
Hypothesis Cp : (kn p : F) = k0.
Hypothesis Hq : length elems = (p * p)%nat.
Hypothesis Hm : (p * p = 2 * m + 1)%nat.
Variable j : nat.
Hypothesis Hj : (p - 1 = 4 * j + 2)%nat.
Variable i : F.
Hypothesis Hi : kmul i i = kopp k1.
Local Open Scope fld_scope.
Definition kth55 := kth F.
Add Field KF55 : kth55.
Definition prth55 := pring F.
Add Ring PR55 : prth55.
Ltac toF := match goal with |- ?a = ?b => change (@eq (Fld.K F) a b) end.
Let N1 : (1 : F) <> 0 := one_nz F.
Definition fr (x : F) : F := kpow x p.
Lemma fr_hom : fhom fr.
Proof. split; [apply (kpow_1 F)|]. split; intros x y; [apply (freshman F p Hp Cp)|apply (kpow_m F)]. Qed.
Lemma p3 : (3 <= p)%nat. Proof. lia. Qed.
Lemma fr_fr x : fr (fr x) = x.
Proof. unfold fr. rewrite <- (kpow_mul F x p p), <- Hq. apply (fermat_F F elems ND Hall). Qed.
Definition bs : list F := map kn (seq 0 p).
Lemma bs_nd : NoDup bs. Proof. apply (kn_nodup F p Hp Cp). Qed.
Lemma bs_len : length bs = p. Proof. unfold bs. now rewrite map_length, seq_length. Qed.
Lemma bs_fr x : In x bs -> fr x = x.
Proof. intros H. apply in_map_iff in H as (n & <- & _). apply (kn_fermat F p Hp Cp). Qed.
Lemma bs_in x : In x bs <-> fr x = x.
Proof.
  split; [apply bs_fr|]. intros E. destruct (in_dec (@kdec F) x bs) as [|N]; [auto|]. exfalso. pose proof p3.
  assert (S1 : sz F (pw px p) = S p /\ lc F (pw px p) = (1 : F)).
  { destruct (pw_sz F px p (x_nz F)) as (_ & -> & ->). rewrite sz_x. split; [lia|]. assert (LX : lc F (px : poly F) = 1) by apply lc_x. rewrite LX. apply kpow_1. }
  assert (S2 : sz F (ps (pw px p) px) = S p /\ lc F (ps (pw px p) px) = (1 : F)).
  { unfold ps. assert (Hl : (sz F (po px) < sz F (pw px p))%nat) by (rewrite sz_o, sz_x; lia). destruct (sz_lt F _ _ Hl) as [-> ->]. exact S1. }
  assert (NW : ps (pw px p) px <> (pO : poly F)) by (apply lc_1_nz, S2).
  assert (L : (length (x :: bs) < sz F (ps (pw px p) px))%nat).
  { apply (root_bound F); [exact NW|constructor; [exact N|apply bs_nd]|]. intros a Ha. rewrite ev_s, ev_w, ev_x by apply id_hom.
    assert (Ea : kpow a p = a) by (destruct Ha as [<-|Ha]; [exact E|now apply bs_fr]). rewrite Ea. toF. ring. }
  cbn [length] in L. rewrite bs_len, (proj1 S2) in L. lia.
Qed.
Lemma fr_i : fr i = - i.
Proof.
  unfold fr. replace p with (1 + (1 + 2 * j) * 2)%nat by lia. rewrite kpow_add, kpow_mul. cbn [kpow]. replace (i * (i * 1)) with (- (1) : F) by (rewrite <- Hi; toF; ring).
  replace (1 + 2 * j)%nat with (1 + j * 2)%nat by lia. rewrite kpow_add, kpow_mul. cbn [kpow]. replace (- (1) * (- (1) * 1)) with (1 : F) by (toF; ring). rewrite kpow_1. toF. ring.
Qed.
Lemma fix_sq x : fr x = x -> exists z, z * z = x.
Proof.
  intros E. destruct (kdec x 0) as [->|N]; [exists 0; toF; ring|]. apply (euler_sq F elems ND Hall m ltac:(lia)).
  assert (E1 : kpow x (p - 1) = 1).
  { assert (X : kpow x p = x * kpow x (p - 1)) by (replace p with (S (p - 1)) at 1 by (pose proof p3; lia); reflexivity). unfold fr in E. rewrite E in X.
    transitivity (x * kpow x (p - 1) / x); [toF; field; auto|]. rewrite <- X. toF. field. auto. }
  replace m with ((2 * j + 2) * (p - 1))%nat by nia. rewrite kpow_mul, E1. apply kpow_1.
Qed.
Notation hopp' := (hopp F F fr fr_hom). Notation hmul' := (hmul F F fr fr_hom). Notation hadd' := (hadd F F fr fr_hom). Notation h1' := (h1 F F fr fr_hom). Notation h0' := (h0 F F fr fr_hom).
Lemma sq_zero (x : F) : x * x = 0 -> x = 0.
Proof. intros E. destruct (kdec x 0) as [|N]; [auto|]. exfalso. now apply (mul_nz F x x N N). Qed.
Lemma sq_pm (x y : F) : x * x = y * y -> x = y \/ x = - y.
Proof.
  intros E. destruct (kdec (x - y) 0) as [H|H]; [left; transitivity (x - y + y); [toF; ring|rewrite H; toF; ring]|].
  destruct (kdec (x + y) 0) as [H'|H']; [right; transitivity (x + y - y); [toF; ring|rewrite H'; toF; ring]|].
  exfalso. apply (mul_nz F _ _ H H'). transitivity (x * x - y * y); [toF; ring|]. rewrite E. toF. ring.
Qed.
Lemma opp_self' (x : F) : x = - x -> x = 0.
Proof.
  intros E. assert (H : 2 * x = 0) by (transitivity (x + x); [toF; ring|]; rewrite E at 2; toF; ring).
  destruct (kdec x 0) as [|N]; [auto|]. exfalso. exact (mul_nz F _ _ two N H).
Qed.
Lemma sq1 x : fr x = x -> exists b, fr b = b /\ (b * b = x \/ b * b = - x).
Proof.
  intros E. destruct (fix_sq x E) as [z Hz]. assert (H : fr z * fr z = z * z) by (rewrite <- hmul', Hz; exact E).
  destruct (sq_pm _ _ H) as [H1|H1].
  - exists z. auto.
  - exists (i * z). split; [rewrite hmul', fr_i, H1; toF; ring|]. right. transitivity (i * i * (z * z)); [toF; ring|]. rewrite Hi, Hz. toF. ring.
Qed.
Lemma sq2' b c : fr b = b -> fr c = c -> b * b = - (c * c) -> b = 0.
Proof.
  intros Eb Ec E. assert (H : b * b = (i * c) * (i * c)) by (rewrite E; transitivity (- (1) * (c * c)); [toF; ring|]; rewrite <- Hi; toF; ring).
  assert (X : b = - b); [|now apply opp_self'].
  destruct (sq_pm _ _ H) as [->| ->].
  - rewrite <- Eb at 1. rewrite hmul', fr_i, Ec. toF. ring.
  - rewrite <- Eb at 1. rewrite hopp', hmul', fr_i, Ec. toF. ring.
Qed.
Notation f0x := (fx (0 : F)).
Lemma f0x_neg x : f0x (- x) = - f0x x. Proof. unfold fx. toF. ring. Qed.
Lemma f0x_fr x : fr x = x -> fr (f0x x) = f0x x. Proof. intros E. unfold fx. now rewrite !hadd', !hmul', h0', E. Qed.
Lemma f0x_z x : fr x = x -> f0x x = 0 -> x = 0.
Proof.
  intros E H. destruct (kdec x 0) as [|N]; [auto|]. apply (sq2' x 1 E h1').
  transitivity (f0x x / x - 1 * 1); [unfold fx; toF; field; auto|]. rewrite H. toF. field. auto.
Qed.
Definition rs (x : F) : F := match find (fun b => if kdec (b * b) x then true else false) bs with Some b => b | None => 0 end.
Lemma rs_fr x : fr (rs x) = rs x.
Proof. unfold rs. destruct (find _ bs) as [b|] eqn:E; [|apply h0']. apply find_some in E as [E _]. now apply bs_in. Qed.
Lemma rs_ok x b : fr b = b -> b * b = x -> rs x * rs x = x.
Proof.
  intros E H. unfold rs. destruct (find _ bs) as [c|] eqn:Ef.
  - apply find_some in Ef as [_ Ef]. destruct (kdec (c * c) x); [auto|discriminate].
  - exfalso. apply bs_in in E. pose proof (find_none _ _ Ef b E) as X. cbn beta in X. destruct (kdec (b * b) x); [discriminate|contradiction].
Qed.
Definition gp (x : F) : point F := if kdec (rs (f0x x) * rs (f0x x)) (f0x x) then Aff x (rs (f0x x)) else Aff (- x) (- rs (f0x (- x))).
Lemma gp_neg x : fr x = x -> rs (f0x x) * rs (f0x x) <> f0x x -> rs (f0x (- x)) * rs (f0x (- x)) = f0x (- x).
Proof.
  intros E N. destruct (sq1 (f0x x) (f0x_fr x E)) as (b & Eb & [H|H]).
  - exfalso. apply N. now apply (rs_ok _ b).
  - apply (rs_ok _ b Eb). now rewrite f0x_neg.
Qed.
Lemma gp_pos x : fr x = x -> x <> 0 -> rs (f0x x) * rs (f0x x) = f0x x -> rs (f0x (- x)) * rs (f0x (- x)) <> f0x (- x).
Proof.
  intros E N H1 H2. rewrite (f0x_neg x) in H2 at 3. apply N, (f0x_z x E). rewrite <- H1.
  assert (X : rs (f0x x) = 0); [|rewrite X; toF; ring].
  apply (sq2' _ (rs (f0x (- x))) (rs_fr _) (rs_fr _)). rewrite H1, H2. toF. ring.
Qed.
Lemma rs_nz x : fr x = x -> x <> 0 -> rs (f0x x) * rs (f0x x) = f0x x -> rs (f0x x) <> 0.
Proof. intros E N H Z. apply N, (f0x_z x E). rewrite <- H, Z. toF. ring. Qed.
Definition Sl : list (point F) := Inf :: map gp bs.
Lemma Sl_len : length Sl = (p + 1)%nat. Proof. unfold Sl. cbn [length]. rewrite map_length, bs_len. lia. Qed.
Lemma neg0 (x : F) : - x = 0 -> x = 0. Proof. intros E. transitivity (- - x); [toF; ring|]. rewrite E. toF. ring. Qed.
Lemma gp_inj x y : fr x = x -> fr y = y -> gp x = gp y -> x = y.
Proof.
  intros Ex Ey. unfold gp. destruct (kdec _ _) as [H1|H1], (kdec _ _) as [H2|H2]; intros E.
  - congruence.
  - exfalso. apply (aff_inj F) in E as [E1 E2]. assert (y = - x) by (rewrite E1; toF; ring). subst y. rewrite <- E1 in *.
    destruct (kdec x 0) as [Z|N]; [subst x; apply H2; replace (- 0) with (0 : F) in * by (toF; ring); exact H1|].
    apply (rs_nz x Ex N H1). apply opp_self'. exact E2.
  - exfalso. apply (aff_inj F) in E as [E1 E2]. assert (x = - y) by (rewrite <- E1; toF; ring). subst x. rewrite E1 in *.
    destruct (kdec y 0) as [Z|N]; [subst y; apply H1; replace (- 0) with (0 : F) in * by (toF; ring); exact H2|].
    apply (rs_nz y Ey N H2). apply opp_self'. symmetry. exact E2.
  - apply (aff_inj F) in E as [E1 _]. transitivity (- - x); [toF; ring|]. rewrite E1. toF. ring.
Qed.
Lemma Sl_nd : NoDup Sl.
Proof.
  constructor.
  - intros H. apply in_map_iff in H as (x & E & _). unfold gp in E. destruct (kdec _ _); discriminate.
  - apply NoDup_map_in; [|apply bs_nd]. intros x y Hx Hy. apply gp_inj; now apply bs_in.
Qed.
Notation onz := (on (0 : F) 1). Notation frp := (pmap F fr).
Lemma Sl_in M : In M Sl <-> onz M /\ frp M = M.
Proof.
  split.
  - intros [<-|H]; [split; [exact I|reflexivity]|]. apply in_map_iff in H as (x & <- & Hx). apply bs_in in Hx. unfold gp.
    destruct (kdec _ _) as [H1|H1]; cbn [on pmap].
    + split; [transitivity (rs (f0x x) * rs (f0x x)); [toF; ring|exact H1]|]. now rewrite rs_fr, Hx.
    + split; [transitivity (rs (f0x (- x)) * rs (f0x (- x))); [toF; ring|exact (gp_neg x Hx H1)]|]. now rewrite !hopp', rs_fr, Hx.
  - intros [HM E]. destruct M as [|x y]; [now left|right]. cbn [pmap] in E. apply (aff_inj F) in E as [Ex Ey]. cbn [on] in HM.
    assert (Hy : y * y = f0x x) by (rewrite <- HM; toF; ring). pose proof (rs_ok _ y Ey Hy) as Hr. apply in_map_iff.
    destruct (sq_pm y (rs (f0x x)) ltac:(rewrite Hr; exact Hy)) as [E|E].
    + exists x. split; [|now apply bs_in]. unfold gp. destruct (kdec _ _) as [_|X]; [now rewrite E|contradiction].
    + destruct (kdec x 0) as [Z|N].
      * exists x. split; [|now apply bs_in]. unfold gp. destruct (kdec _ _) as [_|X]; [|contradiction]. f_equal.
        assert (Y0 : y = 0) by (apply sq_zero; rewrite Hy, Z; unfold fx; toF; ring).
        assert (R0 : rs (f0x x) = 0) by (apply sq_zero; rewrite Hr, Z; unfold fx; toF; ring). congruence.
      * exists (- x). split; [|apply bs_in; rewrite hopp'; now rewrite Ex]. unfold gp. destruct (kdec _ _) as [X|_].
        -- exfalso. exact (gp_pos x Ex N Hr X).
        -- replace (- - x) with x by (toF; ring). now rewrite <- E.
Qed.
Definition io (M : point F) : point F := match M with Inf => Inf | Aff x y => Aff (- x) (i * y) end.
Definition Tl : list (point F) := map io Sl.
Lemma i_nz : i <> 0. Proof. intros E. rewrite E in Hi. apply N1. transitivity (- - (1) : F); [toF; ring|]. rewrite <- Hi. toF. ring. Qed.
Lemma Tl_nd : NoDup Tl.
Proof.
  apply NoDup_map_in; [|apply Sl_nd]. intros [|x y] [|x' y'] _ _ E; try discriminate; [auto|]. cbn [io] in E. apply (aff_inj F) in E as [E1 E2]. pose proof i_nz as NI. f_equal.
  - transitivity (- - x); [toF; ring|]. rewrite E1. toF. ring.
  - transitivity (i * y / i); [toF; field; auto|]. rewrite E2. toF. field. auto.
Qed.
Lemma Tl_in M : In M Tl <-> onz M /\ frp M = neg M.
Proof.
  unfold Tl. rewrite in_map_iff. split.
  - intros (N & <- & HN). apply Sl_in in HN as [HN E]. destruct N as [|x y]; [split; [exact I|reflexivity]|]. cbn [io on pmap neg] in *. apply (aff_inj F) in E as [Ex Ey]. split.
    + rewrite f0x_neg, <- HN. transitivity (i * i * (y * y)); [toF; ring|]. rewrite Hi. toF. ring.
    + rewrite hopp', hmul', fr_i, Ex, Ey. f_equal. toF. ring.
  - intros [HM E]. destruct M as [|x y]; [exists Inf; split; [reflexivity|now left]|]. cbn [on pmap neg] in *. apply (aff_inj F) in E as [Ex Ey].
    exists (Aff (- x) (- (i * y))). split; [cbn [io]; f_equal; [toF; ring|]; transitivity (- (i * i) * y); [toF; ring|]; rewrite Hi; toF; ring|].
    apply Sl_in. cbn [on pmap]. split.
    + rewrite f0x_neg, <- HM. transitivity (i * i * (y * y)); [toF; ring|]. rewrite Hi. toF. ring.
    + rewrite !hopp', hmul', fr_i, Ex, Ey. f_equal. toF. ring.
Qed.
Lemma z_ns : (0 : F) * 0 <> 4. Proof. intros E. apply (four F two). rewrite <- E. toF. ring. Qed.
Notation padd0 := (padd (0 : F) 1).
Definition psi (M : point F) : point F := padd0 M (frp M).
Lemma fr0 : fr 0 = 0. Proof. exact h0'. Qed.
Lemma fr1 : fr 1 = 1. Proof. exact h1'. Qed.
Notation frp_on := (pmap_on F fr fr_hom 0 1 fr0 fr1).
Notation frp_add := (pmap_add F fr fr_hom 0 1 fr0 fr1 two N1).
Notation a_on := (p_on F two 0 1 z_ns N1). Notation a_assoc := (p_assoc F two 0 1 z_ns N1). Notation a_comm := (padd_comm F two 0 1 z_ns N1).
Lemma psi_on' M : onz M -> onz (psi M). Proof. intros H. apply a_on; [auto|]. now apply frp_on. Qed.
Lemma psi_add' M N : onz M -> onz N -> psi (padd0 M N) = padd0 (psi M) (psi N).
Proof.
  intros H1 H2. unfold psi. rewrite frp_add by auto. pose proof (frp_on M H1) as H3. pose proof (frp_on N H2) as H4.
  rewrite !a_assoc by auto using a_on. f_equal. rewrite <- !(a_assoc N), <- (a_assoc (frp M)) by auto. f_equal. now apply a_comm.
Qed.
Lemma psi_ker M : In M Tl <-> onz M /\ psi M = Inf.
Proof.
  rewrite Tl_in. split; intros [H1 H2]; (split; [auto|]).
  - unfold psi. rewrite H2. apply (padd_neg F 0 1).
  - apply (padd_opp_eq F two 0 1 z_ns N1); auto. now apply frp_on.
Qed.
Lemma frp_frp M : frp (frp M) = M. Proof. destruct M as [|x y]; [auto|]. cbn [pmap]. now rewrite !fr_fr. Qed.
Theorem zero_count l : all_points (0 : F) 1 l -> (7 <= p)%nat -> length l = ((p + 1) * (p + 1))%nat.
Proof.
  intros Hl P7. pose proof (fib F two 0 1 z_ns N1 psi psi_on' psi_add' l Hl Tl Tl_nd psi_ker) as E.
  assert (LT : length Tl = (p + 1)%nat) by (unfold Tl; rewrite map_length; apply Sl_len). rewrite LT in E.
  assert (D : Nat.divide (length (im F psi l)) (length Sl)).
  { apply (im_div F two 0 1 z_ns N1 psi psi_on' psi_add' l Hl Sl Sl_nd).
    - intros N H. apply (im_in F 0 1 psi l Hl) in H as (M & HM & <-). apply Sl_in. split; [now apply psi_on'|].
      unfold psi. rewrite frp_add, frp_frp; [|auto|now apply frp_on]. apply a_comm; [now apply frp_on|auto].
    - intros M H. now apply Sl_in in H.
    - intros M N H1 H2. apply Sl_in in H1 as [H1 E1]. apply Sl_in in H2 as [H2 E2]. apply Sl_in. split; [now apply a_on|]. rewrite frp_add by auto. now rewrite E1, E2. }
  rewrite Sl_len in D. destruct D as [e He]. pose proof (hasse_bound F two elems ND Hall p m Hp Cp Hq Hm 0 z_ns l Hl) as HH. unfold hasse in HH.
  rewrite E in *. clear - He HH P7. revert He HH. generalize (length (im F psi l)). intros d He HH. f_equal.
  destruct e as [|[|e]]; [lia|lia|]. exfalso.
  assert (2 * d <= p + 1)%nat by nia. assert (H2 : (2 * (d * (p + 1)) <= (p + 1) * (p + 1))%nat) by nia. revert HH H2 P7. generalize (d * (p + 1))%nat. clear. intros n HH H2 P7.
  assert (X : 2 * Z.of_nat n <= (Z.of_nat p + 1) * (Z.of_nat p + 1)) by nia. assert (Z.of_nat p * Z.of_nat p + 1 - 2 * Z.of_nat p <= Z.of_nat n) by lia. nia.
Qed.
End Z0.
