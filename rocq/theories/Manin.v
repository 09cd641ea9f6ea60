(** The sum of the degrees of x(M + Q) and x(M - Q) over the field of rational functions, Q = (X, 1) the generic point (Manin's
    proof of Hasse's theorem; proofs only, no code of /repo is modelled here). *)
From Coq Require Import Field Znumtheory.
From Verif Require Import Base Out Params Ops Ec Models Fld FieldOps CurveSpec IsogSpec ModelSpec XSpec WalkSpec FldCurve GroupP MultP IsoP FldIsog FldModels
  XLine XIso Strategy XChain CheckP XIsog WalkP OrderP SquareP KumP Poly RatFun PolyEv.
Set Bullet Behavior "Strict Subproofs".

Section Man.
Variable F : fld.
Hypothesis two : (kadd k1 k1 : F) <> k0.
Variable A : F.
Hypothesis HA : kmul A A <> (4%F).
Notation K := (RF F).
Definition prth40 := pring F.
Add Ring PR40 : prth40.
Definition kth40 := kth F.
Add Field KF40 : kth40.
Definition kth41 := kth (RF F).
Add Field KF41 : kth41.
Local Open Scope poly_scope.
Implicit Types (f g h : poly F) (q s d : xl K).
Notation X := (pr F px). Notation AK := (cst F A).
Definition fn q : poly F := match q with XInf => 1 | XF z => nu z end.
Definition gn q : poly F := match q with XInf => 0 | XF z => de z end.
Lemma fg_cop q : cop F (fn q) (gn q).
Proof. destruct q as [|z]; cbn [fn gn]; [exists 1, 1; ring|apply rat_low]. Qed.
Lemma fg_rep q : rep (pr F (fn q)) (pr F (gn q)) q.
Proof.
  destruct q as [|z]; cbn [fn gn rep].
  - split; [apply pr_nz, I_nz|reflexivity].
  - split; [apply pr_nz, de_nz|apply nude].
Qed.
Definition W1 f g := (f * px - g) * (f * px - g).
Definition W2 f g := (1 + 1) * ((f + px * g) * (f * px + g) + (1 + 1) * (pC A * (f * px * g))).
Definition W3 f g := (f - px * g) * (f - px * g).
Lemma prV1 f g : V1 K (pr F f) (pr F g) X k1 = pr F (W1 f g).
Proof. unfold V1, W1. rewrite !pr_mul, !pr_sub, !pr_mul. ring. Qed.
Lemma prV2 f g : V2 K AK (pr F f) (pr F g) X k1 = pr F (W2 f g).
Proof.
  unfold V2, W2. rewrite !pr_mul, !pr_add, !pr_mul, !pr_add, !pr_mul. fold (cst F A). change (pr F 1) with (k1 : K). ring.
Qed.
Lemma prV3 f g : V3 K (pr F f) (pr F g) X k1 = pr F (W3 f g).
Proof. unfold V3, W3. rewrite !pr_mul, !pr_sub, !pr_mul. ring. Qed.
(** No common factors on either side. *)
Lemma prim_T f g f' g' h : cop F f g -> cop F f' g' -> dvd F h (f * f') -> dvd F h (f * g' + f' * g) -> dvd F h (g * g') -> dvd F h 1.
Proof.
  intros (a & b & E) (a' & b' & E') [t1 T1] [t2 T2] [t3 T3].
  set (Ee := a * a' * (f * f') + b * b' * (g * g')). set (uv := a * b' * (f * g') + b * a' * (f' * g)).
  assert (X1 : 1 = (Ee + (1 + 1) * uv) * Ee + (a * b' * (a * b') * (f * g') * (f * g' + f' * g) + b * a' * (b * a') * (f' * g) * (f * g' + f' * g))
     - (a * b' * (a * b') + b * a' * (b * a') - (1 + 1) * (a * b' * (b * a'))) * (f * f') * (g * g')).
  { transitivity (((a * f + b * g) * (a' * f' + b' * g')) * ((a * f + b * g) * (a' * f' + b' * g'))); [rewrite E, E'; ring|]. unfold Ee, uv. ring. }
  rewrite X1. unfold Ee at 2. rewrite T1, T2, T3.
  exists ((Ee + (1 + 1) * uv) * (a * a' * t1 + b * b' * t3) + (a * b' * (a * b') * (f * g') * t2 + b * a' * (b * a') * (f' * g) * t2)
     - (a * b' * (a * b') + b * a' * (b * a') - (1 + 1) * (a * b' * (b * a'))) * t1 * (t3 * h)). ring.
Qed.
Lemma C4 (z : F) (fo : poly F) : pC z = fo -> pC (kmul z (ksub z (kmul A A))) = fo * (fo - pC A * pC A).
Proof.
  intros E. rewrite C_mul, E. f_equal. transitivity (pC (kadd z (kopp (kmul A A)))); [f_equal; ring|]. rewrite C_add, C_opp, C_mul, E. reflexivity.
Qed.
Lemma prim_V f g h : cop F f g -> dvd F h (W1 f g) -> dvd F h (W2 f g) -> dvd F h (W3 f g) -> dvd F h 1.
Proof.
  intros C D1 D2 D3. set (al := f * px - g). set (be := f - px * g). set (v2 := W2 f g).
  set (I := fun t => exists u v w, t = u * al + v * be + w * v2).
  assert (Iadd : forall x y : poly F, I x -> I y -> I (x + y)).
  { intros x y (u & v & w & ->) (u' & v' & w' & ->). exists (u + u'), (v + v'), (w + w'). ring. }
  assert (Imul : forall x y : poly F, I y -> I (x * y)).
  { intros x y (u & v & w & ->). exists (x * u), (x * v), (x * w). ring. }
  assert (Cyc : forall x y z : poly F, cop F x y -> I (x * z) -> I (y * z) -> I z).
  { intros x y z (a & b & E) Hs Ht. replace z with (a * (x * z) + b * (y * z)); [apply Iadd; apply Imul; auto|]. transitivity ((a * x + b * y) * z); [ring|]. rewrite E. ring. }
  assert (J1 : I (px * px - 1)).
  { apply (Cyc f g); auto; [exists px, (- (1)), 0|exists 1, (- px), 0]; unfold al, be; ring. }
  set (t2 := (1 + 1 : poly F)) in *. set (fo := t2 * t2) in *.
  assert (J2 : I (fo * (t2 * px + pC A))).
  { apply (Cyc (f * f) (g * g)).
    - apply cop_m; apply cop_sym; apply cop_m; apply cop_sym; auto.
    - exists (t2 * (f + (1 + t2) * (px * px * f) - px * al + t2 * (pC A * (f * px))) - fo * f * (px + pC A) * px), (fo * f * (px + pC A)), 1.
      unfold v2, W2, al, be, fo. fold t2. unfold t2. ring.
    - exists (- (fo * g * (px + pC A))), (fo * g * (px + pC A) * px - t2 * (px * be + (1 + t2) * (px * px * g) + g + t2 * (pC A * (px * g)))), 1.
      unfold v2, W2, al, be, fo. fold t2. unfold t2. ring. }
  set (c := kmul (4%F) (ksub (4%F) (kmul A A))).
  assert (Nc : c <> k0). { unfold c. apply (mul_nz F); [apply (mul_nz F); exact two|]. apply (sub_nz F). intros E. apply HA. symmetry. exact E. }
  assert (Ec : pC c = fo * (fo - pC A * pC A)).
  { apply C4. rewrite C_mul, !C_add. reflexivity. }
  assert (J3 : I (pC c)).
  { rewrite Ec. replace (fo * (fo - pC A * pC A)) with ((t2 * px - pC A) * (fo * (t2 * px + pC A)) + (- (fo * fo)) * (px * px - 1)) by (unfold fo, t2; ring).
    apply Iadd; apply Imul; auto. }
  assert (J4 : I 1).
  { replace (1 : poly F) with (pC (kdiv k1 c) * pC c); [now apply Imul|]. rewrite <- C_mul. unfold pI. f_equal. field. auto. }
  destruct J4 as (u & v & w & J4). destruct D1 as [d1 D1], D2 as [d2 D2], D3 as [d3 D3]. fold v2 in D2. unfold W1 in D1. fold al in D1. unfold W3 in D3. fold be in D3.
  set (e := u * al + v * be) in *. set (k := w * v2) in *.
  assert (X1 : 1 = al * al * (u * u * u * al + (1 + t2) * (u * u * v * be)) + be * be * ((1 + t2) * (u * v * v * al) + v * v * v * be)
     + v2 * (w * ((1 + t2) * (e * e) + (1 + t2) * (e * k) + k * k))).
  { transitivity ((e + k) * (e + k) * (e + k)); [rewrite <- J4; ring|]. unfold e, k, t2. ring. }
  rewrite X1, D1, D2, D3. exists (d1 * (u * u * u * al + (1 + t2) * (u * u * v * be)) + d3 * ((1 + t2) * (u * v * v * al) + v * v * v * be) + d2 * (w * ((1 + t2) * (e * e) + (1 + t2) * (e * k) + k * k))).
  ring.
Qed.
(** The relation between sums and differences, for the numerators and denominators. *)
Lemma XT_poly q s d : XT K AK q (XF X) s d -> exists c : F, c <> k0 /\ fn s * fn d = pC c * W1 (fn q) (gn q) /\
  fn s * gn d + fn d * gn s = pC c * W2 (fn q) (gn q) /\ gn s * gn d = pC c * W3 (fn q) (gn q).
Proof.
  intros H. destruct (XT_any K AK _ _ _ _ _ _ _ _ _ _ _ _ H (fg_rep q) (rep_1 K X) (fg_rep s) (fg_rep d)) as (l & Nl & E1 & E2 & E3).
  rewrite prV1 in E1. rewrite prV2 in E2. rewrite prV3 in E3.
  set (u := de l). set (v := nu l). pose proof (nude F l) as El. fold u v in El. pose proof (de_nz F l) as Nu. fold u in Nu.
  assert (Cuv : cop F u v) by (apply cop_sym, rat_low).
  assert (G : forall T W : poly F, pr F T = kmul l (pr F W) -> T * u = v * W).
  { intros T W E. apply pr_inj. rewrite !pr_mul, E, El. ring. }
  assert (G1 : fn s * fn d * u = v * W1 (fn q) (gn q)) by (apply G; rewrite pr_mul; exact E1).
  assert (G2 : (fn s * gn d + fn d * gn s) * u = v * W2 (fn q) (gn q)) by (apply G; rewrite pr_add, !pr_mul; exact E2).
  assert (G3 : gn s * gn d * u = v * W3 (fn q) (gn q)) by (apply G; rewrite pr_mul; exact E3).
  assert (Uu : dvd F u 1).
  { apply (prim_V (fn q) (gn q)); [apply fg_cop| | |]; apply (euclid F u v); auto; eexists; symmetry; eassumption. }
  assert (Uv : dvd F v 1).
  { apply (prim_T (fn s) (gn s) (fn d) (gn d)); try apply fg_cop; apply (euclid F v u); try (apply cop_sym; exact Cuv).
    - exists (W1 (fn q) (gn q)). transitivity (fn s * fn d * u); [ring|]. rewrite G1. ring.
    - exists (W2 (fn q) (gn q)). transitivity ((fn s * gn d + fn d * gn s) * u); [ring|]. rewrite G2. ring.
    - exists (W3 (fn q) (gn q)). transitivity (gn s * gn d * u); [ring|]. rewrite G3. ring. }
  destruct (dvd_one F u Uu) as (_ & Eu & Nu'). destruct (dvd_one F v Uv) as (_ & Ev & Nv'). set (a := cf u 0) in *. set (b := cf v 0) in *.
  exists (kdiv b a). split. { intros E. apply Nv'. transitivity (kmul (kdiv b a) a); [field; auto|]. rewrite E. ring. }
  assert (Gf : forall T W : poly F, T * u = v * W -> T = pC (kdiv b a) * W).
  { intros T W E. rewrite Eu, Ev in E. apply (pcancel F _ _ (pC a) (C_nz F a Nu')). rewrite E. transitivity (pC (kmul (kdiv b a) a) * W); [f_equal; f_equal; field; auto|]. rewrite C_mul. ring. }
  split; [now apply Gf|]. split; now apply Gf.
Qed.
(** ** Degrees *)
Definition J q : Prop := (sz F (gn q) < sz F (fn q))%nat.
Definition D q : nat := (sz F (fn q) - 1)%nat.
Lemma C_sz c f : c <> k0 -> sz F (pC c * f) = sz F f.
Proof.
  intros N. destruct (pdec F f 0) as [->|Nf]; [f_equal; ring|]. destruct (sz_m F (pC c) f (C_nz F c N) Nf) as (_ & E & _). rewrite (sz_C F c N) in E. lia.
Qed.
Lemma sz_mle f g : (sz F (f * g) + 1 <= sz F f + sz F g)%nat \/ f * g = 0.
Proof.
  destruct (pdec F f 0) as [->|Nf]; [right; ring|]. destruct (pdec F g 0) as [->|Ng]; [right; ring|]. left. destruct (sz_m F f g Nf Ng) as (_ & E & _). lia.
Qed.
Lemma sz_mb f g a b : (sz F f <= a)%nat -> (sz F g <= b)%nat -> (sz F (f * g) <= a + b - 1)%nat.
Proof. intros Ha Hb. destruct (sz_mle f g) as [E|E]; [lia|]. rewrite E, sz_O. lia. Qed.
Lemma J_step q s d : XT K AK q (XF X) s d -> J q -> J d -> J s /\ (D s + D d = 2 * D q + 2)%nat.
Proof.
  intros H Jq Jd. destruct (XT_poly q s d H) as (c & Nc & E1 & E2 & E3). unfold J, D in *.
  assert (N0 : forall q, (sz F (gn q) < sz F (fn q))%nat -> fn q <> 0) by (intros x Hx E; rewrite E, sz_O in Hx; lia).
  pose proof (N0 q Jq) as Nq. pose proof (N0 d Jd) as Nd. pose proof (sz_pos F _ Nq) as Pq. pose proof (sz_pos F _ Nd) as Pd.
  set (f := fn q) in *. set (g := gn q) in *. destruct (sz_m F f px Nq (x_nz F)) as (Nfx & Sfx & _). rewrite sz_x in Sfx.
  assert (Sal : sz F (f * px - g) = (sz F f + 1)%nat).
  { unfold ps. destruct (sz_lt F (f * px) (- g)) as [-> _]; [rewrite sz_o; lia|lia]. }
  assert (Nal : f * px - g <> 0) by (intros E; rewrite E, sz_O in Sal; lia).
  destruct (sz_m F _ _ Nal Nal) as (NW & SW & _). fold (W1 f g) in NW, SW.
  assert (ST : sz F (fn s * fn d) = (2 * sz F f + 1)%nat) by (rewrite E1, C_sz by auto; lia).
  assert (Ns : fn s <> 0). { intros E. rewrite E in ST. replace (0 * fn d) with (0 : poly F) in ST by ring. rewrite sz_O in ST. lia. }
  pose proof (sz_pos F _ Ns) as Ps. destruct (sz_m F (fn s) (fn d) Ns Nd) as (_ & SS & _).
  split; [|lia].
  assert (S2 : (sz F (W2 f g) <= 2 * sz F f)%nat).
  { assert (B1 : (sz F (px * g) <= sz F f)%nat). { pose proof (sz_mb px g 2 (sz F f - 1) ltac:(rewrite sz_x; lia) ltac:(lia)). lia. }
    assert (B2 : (sz F (f + px * g) <= sz F f)%nat) by (apply sz_a; lia).
    assert (B3 : (sz F (f * px + g) <= sz F f + 1)%nat) by (apply sz_a; lia).
    assert (BI : forall a : poly F, (sz F ((1 + 1) * a) <= sz F a)%nat).
    { intros a. pose proof (sz_mb (1 + 1) a 1 (sz F a) ltac:(apply sz_a; rewrite sz_I; lia) ltac:(lia)). lia. }
    assert (B4 : (sz F (pC A * (f * px * g)) <= 2 * sz F f)%nat).
    { pose proof (sz_mb (pC A) (f * px * g) 1 (2 * sz F f)) as Y. assert ((sz F (pC A * (f * px * g)) <= 1 + 2 * sz F f - 1)%nat); [|lia]. apply Y.
      - apply sz_le. intros [|i] Hi; [lia|]. now rewrite cf_C.
      - replace (f * px * g) with (f * (px * g)) by ring. pose proof (sz_mb f (px * g) (sz F f) (sz F f)). lia. }
    unfold W2. eapply Nat.le_trans; [apply BI|]. apply sz_a.
    - pose proof (sz_mb _ _ _ _ B2 B3). lia.
    - eapply Nat.le_trans; [apply BI|exact B4]. }
  assert (S3 : (sz F (fn d * gn s) <= 2 * sz F f \/ True)%nat) by auto. clear S3.
  assert (S4 : (sz F (fn s * gn d) <= 2 * sz F f)%nat).
  { pose proof (sz_mb (fn s) (gn d) (sz F (fn s)) (sz F (fn d) - 1) ltac:(lia) ltac:(lia)). lia. }
  assert (S5 : (sz F (fn d * gn s) <= 2 * sz F f)%nat).
  { replace (fn d * gn s) with ((fn s * gn d + fn d * gn s) - fn s * gn d) by ring. rewrite E2. apply sz_s; [rewrite C_sz; auto|auto]. }
  destruct (pdec F (gn s) 0) as [->|Ng]; [rewrite sz_O; lia|]. destruct (sz_m F (fn d) (gn s) Nd Ng) as (_ & S6 & _). lia.
Qed.
(** ** Values *)
Section Sp.
Variable L : fld.
Variable e : F -> L.
Hypothesis He : fhom e.
Variable y : L.
Definition kth42 := kth L.
Add Field KF42 : kth42.
Definition sp q : xl L := if kdec (ev e (gn q) y) k0 then XInf else XF (kdiv (ev e (fn q) y) (ev e (gn q) y)).
Lemma sp_rep q : rep (ev e (fn q) y) (ev e (gn q) y) (sp q).
Proof.
  destruct (fg_cop q) as (a & b & E). pose proof (f_equal (fun P => ev e P y) E) as E1. cbn beta in E1. rewrite ev_a, !ev_m, ev_1 in E1 by auto.
  unfold sp. destruct (kdec (ev e (gn q) y) k0) as [Z|N]; cbn [rep].
  - split; auto. intros Z'. apply (one_nz0 L). rewrite <- E1, Z, Z'. ring.
  - split; auto. change (@eq (Fld.K L) (ev e (fn q) y) (kmul (kdiv (ev e (fn q) y) (ev e (gn q) y)) (ev e (gn q) y))). field. auto.
Qed.
Lemma sp_inf : sp XInf = XInf.
Proof. unfold sp. cbn [gn]. destruct (kdec (ev e 0 y) k0) as [|N]; [reflexivity|]. exfalso. now apply N. Qed.
Lemma sp_XT q s d : XT K AK q (XF X) s d -> XT L (e A) (sp q) (XF y) (sp s) (sp d).
Proof.
  intros H. destruct (XT_poly q s d H) as (c & Nc & E1 & E2 & E3).
  exists (ev e (fn q) y), (ev e (gn q) y), y, k1, (ev e (fn s) y), (ev e (gn s) y), (ev e (fn d) y), (ev e (gn d) y), (e c).
  split. { intros Z. apply (one_nz0 L). transitivity (e k1); [symmetry; apply He|]. transitivity (e (kmul c (kdiv k1 c))); [f_equal; field; auto|].
    destruct He as (_ & _ & Hm). rewrite Hm, Z. ring. }
  split; [apply sp_rep|]. split; [apply rep_1|]. split; [apply sp_rep|]. split; [apply sp_rep|].
  pose proof (f_equal (fun P => ev e P y) E1) as X1. pose proof (f_equal (fun P => ev e P y) E2) as X2. pose proof (f_equal (fun P => ev e P y) E3) as X3. cbn beta in X1, X2, X3.
  unfold W1 in X1. unfold W2 in X2. unfold W3 in X3.
  repeat first [rewrite ev_m in X1 by auto|rewrite ev_s in X1 by auto|rewrite ev_x in X1 by auto|rewrite ev_C in X1 by auto].
  repeat first [rewrite ev_m in X2 by auto|rewrite ev_a in X2 by auto|rewrite ev_x in X2 by auto|rewrite ev_C in X2 by auto|rewrite ev_1 in X2 by auto].
  repeat first [rewrite ev_m in X3 by auto|rewrite ev_s in X3 by auto|rewrite ev_x in X3 by auto|rewrite ev_C in X3 by auto].
  unfold V1, V2, V3. split; [|split].
  - rewrite X1. ring.
  - rewrite X2. ring.
  - rewrite X3. ring.
Qed.
End Sp.
End Man.
