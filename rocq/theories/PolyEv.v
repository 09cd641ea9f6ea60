(** Values and roots of polynomials, powers, and Fermat's theorem in finite fields (proofs only; no code of /repo is modelled here). *)
From Coq Require Import Field Permutation Znumtheory.
From Verif Require Import Base Fermat Fld CurveSpec Poly RatFun.
Set Bullet Behavior "Strict Subproofs".

Fixpoint kpow {F : fld} (x : F) (n : nat) : F := match n with O => k1 | S n => kmul x (kpow x n) end.
Fixpoint pw {F : fld} (P : poly F) (n : nat) : poly F := match n with O => pI | S n => pm P (pw P n) end.

Section Ev.
Variables F L : fld.
Variable e : F -> L.
Hypothesis He : fhom e.
Definition kth33 := kth L.
Add Field KF33 : kth33.
Definition kth34 := kth F.
Add Field KF34 : kth34.
Definition prth33 := pring F.
Add Ring PR33 : prth33.
Implicit Types (P Q : poly F) (l m : list F) (c : F) (y : L).
Fixpoint lev (l : list F) y : L := match l with [] => k0 | c :: l => kadd (e c) (kmul y (lev l y)) end.
Definition ev P y : L := lev (cs P) y.
Lemma e_0 : e k0 = k0.
Proof.
  destruct He as (_ & HA & _). assert (E : e k0 = kadd (e k0) (e k0)) by (rewrite <- HA; f_equal; ring).
  transitivity (ksub (kadd (e k0) (e k0)) (e k0)); [change (@eq (K L) (e k0) (ksub (kadd (e k0) (e k0)) (e k0))); ring|]. rewrite <- E. ring.
Qed.
Lemma lev_norm l y : lev (norm F l) y = lev l y.
Proof.
  induction l as [|c l IH]; [reflexivity|]. cbn [norm lev]. rewrite <- IH. destruct (norm F l) as [|d m].
  - destruct (kdec c k0) as [->|N]; cbn [lev]; rewrite ?e_0; ring.
  - reflexivity.
Qed.
Lemma lev_add l m y : lev (radd F l m) y = kadd (lev l y) (lev m y).
Proof.
  destruct He as (_ & HA & _). revert m. induction l as [|c l IH]; intros [|d m]; cbn [radd lev]; try ring. rewrite IH, HA. ring.
Qed.
Lemma lev_scale c l y : lev (rscale F c l) y = kmul (e c) (lev l y).
Proof.
  destruct He as (_ & _ & HM). induction l as [|d l IH]; cbn [rscale map lev]; [ring|]. unfold rscale in IH. rewrite IH, HM. ring.
Qed.
Lemma lev_mul l m y : lev (rmul F l m) y = kmul (lev l y) (lev m y).
Proof.
  induction l as [|c l IH]; cbn [rmul lev]; [ring|]. rewrite lev_add, lev_scale. cbn [lev]. rewrite IH, e_0. ring.
Qed.
Lemma ev_a P Q y : ev (pa P Q) y = kadd (ev P y) (ev Q y). Proof. unfold ev. change (cs (pa P Q)) with (norm F (radd F (cs P) (cs Q))). rewrite lev_norm. apply lev_add. Qed.
Lemma ev_m P Q y : ev (pm P Q) y = kmul (ev P y) (ev Q y). Proof. unfold ev. change (cs (pm P Q)) with (norm F (rmul F (cs P) (cs Q))). rewrite lev_norm. apply lev_mul. Qed.
Lemma ev_C c y : ev (pC c) y = e c.
Proof. unfold ev. change (cs (pC c)) with (norm F [c]). rewrite lev_norm. cbn. ring. Qed.
Lemma ev_x y : ev px y = y.
Proof. unfold ev. change (cs (@px F)) with (norm F [k0; k1]). rewrite lev_norm. cbn. rewrite e_0. destruct He as (H1 & _). rewrite H1. ring. Qed.
Lemma ev_0 y : ev pO y = k0. Proof. reflexivity. Qed.
Lemma ev_1 y : ev pI y = k1. Proof. unfold pI. rewrite ev_C. apply He. Qed.
Lemma ev_o P y : ev (po P) y = kopp (ev P y).
Proof.
  assert (E : kadd (ev (po P) y) (ev P y) = k0). { rewrite <- ev_a, <- (ev_0 y). f_equal. ring. }
  transitivity (ksub (kadd (ev (po P) y) (ev P y)) (ev P y)); [change (@eq (K L) (ev (po P) y) (ksub (kadd (ev (po P) y) (ev P y)) (ev P y))); ring|]. rewrite E. ring.
Qed.
Lemma ev_s P Q y : ev (ps P Q) y = ksub (ev P y) (ev Q y).
Proof. unfold ps. rewrite ev_a, ev_o. ring. Qed.
Lemma ev_w P n y : ev (pw P n) y = kpow (ev P y) n.
Proof. induction n as [|n IH]; cbn [pw kpow]; [apply ev_1|]. now rewrite ev_m, IH. Qed.
End Ev.
Arguments ev {F L}.
Definition idF {F : fld} (x : F) : F := x.
Lemma id_hom {F : fld} : fhom (@idF F). Proof. repeat split. Qed.
(** The value at a point of the field. *)
Notation at_ := (ev idF).

Section Ind.
Variable F : fld.
Definition prth36 := pring F.
Add Ring PR36 : prth36.
Definition kth36 := kth F.
Add Field KF36 : kth36.
Lemma mk_cons (c : F) l : mk F (c :: l) = pa (pC c) (pm px (mk F l)).
Proof.
  apply p_ext. intros n. rewrite cf_a, cf_C, cf_m, cf_mk.
  rewrite (mul_ext' F (cs px) [k0; k1] (cs (mk F l)) l n) by (intros k; first [exact (cf_mk F [k0; k1] k)|exact (cf_mk F l k)]).
  rewrite coef_cons. destruct n as [|n]; cbn [shf].
  - cbn. ring.
  - rewrite coef_cons. change (coef F (c :: l) (S n)) with (coef F l n). cbn [rmul]. destruct n as [|n]; cbn [shf]; rewrite ?coef_nil; ring.
Qed.
Lemma p_ind (R : poly F -> Prop) : R pO -> (forall c P, R P -> R (pa (pC c) (pm px P))) -> forall P, R P.
Proof.
  intros H0 HS P. replace P with (mk F (cs P)) by (apply cs_inj; exact (cs_norm F P)). induction (cs P) as [|c l IH]; [exact H0|]. rewrite mk_cons. auto.
Qed.
(** A polynomial is its value at X in the field of rational functions. *)
Lemma ev_X (P : poly F) : ev (cst F) P (pr F px) = pr F P.
Proof.
  induction P as [|c P IH] using p_ind; [reflexivity|]. rewrite ev_a, ev_m, ev_C, ev_x, IH by apply cst_hom. now rewrite pr_add, pr_mul.
Qed.
Lemma pr_w (P : poly F) n : pr F (pw P n) = kpow (pr F P) n.
Proof. induction n as [|n IH]; [reflexivity|]. cbn [pw kpow]. rewrite pr_mul, IH. reflexivity. Qed.
End Ind.

Section Root.
Variable F : fld.
Local Open Scope poly_scope.
Definition prth35 := pring F.
Add Ring PR35 : prth35.
Definition kth35 := kth F.
Add Field KF35 : kth35.
Implicit Types (P Q : poly F) (a c : F) (l : list F).
Notation H1 := (@id_hom F).
Lemma lc_I : lc F 1 = k1. Proof. unfold lc. rewrite sz_I. cbn [Nat.sub]. unfold pI. now rewrite cf_C. Qed.
Lemma lc_x : lc F px = k1. Proof. unfold lc. rewrite sz_x. cbn [Nat.sub]. now rewrite cf_x. Qed.
Lemma at_lin a b : at_ (px - pC a) b = ksub b a. Proof. rewrite ev_s, ev_x, ev_C by apply H1. reflexivity. Qed.
Lemma sz_lin a : sz F (px - pC a) = 2%nat /\ lc F (px - pC a) = k1.
Proof.
  assert (L : (sz F (- pC a) < sz F px)%nat). { rewrite sz_x, sz_o. pose proof (sz_le F (pC a) 1) as X. assert ((sz F (pC a) <= 1)%nat); [|lia]. apply X. intros [|i] Hi; [lia|]. now rewrite cf_C. }
  unfold ps. destruct (sz_lt F px (- pC a) L) as [-> ->]. rewrite sz_x. split; [reflexivity|]. unfold lc. rewrite sz_x. cbn [Nat.sub]. now rewrite cf_x.
Qed.
Lemma lin_nz a : px - pC a <> 0. Proof. apply lc_1_nz, sz_lin. Qed.
Lemma factor P a : at_ P a = k0 -> dvd F (px - pC a) P.
Proof.
  intros E. destruct (divide F (px - pC a) (lin_nz a) (sz F P) P (le_n _)) as [[Q R] [E1 E2]]. cbn [fst snd] in *. rewrite (proj1 (sz_lin a)) in E2.
  pose proof (sz1 F R ltac:(lia)) as ER. set (c := cf R 0) in *. clearbody c. subst R.
  assert (c = k0) as ->.
  { rewrite <- E, E1, ev_a, ev_m, at_lin, ev_C by apply H1. unfold idF. ring. }
  exists Q. rewrite E1 at 1. rewrite C_0. ring.
Qed.
Lemma cop_lin P a : at_ P a <> k0 -> cop F (px - pC a) P.
Proof.
  intros N. assert (E : at_ (P - pC (at_ P a)) a = k0). { rewrite ev_s, ev_C by apply H1. unfold idF. ring. }
  destruct (factor _ _ E) as [Q HQ]. set (c := at_ P a) in *. exists (- Q * pC (kdiv k1 c)), (pC (kdiv k1 c)).
  assert (I : pC (kdiv k1 c) * pC c = 1). { rewrite <- C_mul. unfold pI. f_equal. field. auto. }
  transitivity (pC (kdiv k1 c) * (P - Q * (px - pC a))); [ring|]. rewrite <- HQ. transitivity (pC (kdiv k1 c) * pC c); [ring|exact I].
Qed.
Fixpoint prodX l : poly F := match l with [] => 1 | a :: l => (px - pC a) * prodX l end.
Lemma prodX_mon l : prodX l <> 0 /\ sz F (prodX l) = S (length l) /\ lc F (prodX l) = k1.
Proof.
  induction l as [|a l (N & S1 & L)]; cbn [prodX length].
  - split; [apply I_nz|]. split; [apply sz_I|]. apply lc_I.
  - destruct (sz_m F (px - pC a) (prodX l) (lin_nz a) N) as (N' & S' & L'). destruct (sz_lin a) as [Sa La]. split; auto. split; [lia|]. rewrite L', La, L. ring.
Qed.
Lemma prodX_at l b : at_ (prodX l) b = k0 <-> In b l.
Proof.
  induction l as [|a l IH]; cbn [prodX In].
  - rewrite ev_1 by apply H1. split; [intros E; now apply one_nz0 in E|tauto].
  - rewrite ev_m, at_lin by apply H1. rewrite <- IH. split.
    + intros E. destruct (kdec a b) as [|N]; [auto|]. right. transitivity (kdiv (kmul (ksub b a) (at_ (prodX l) b)) (ksub b a)).
      * assert (ksub b a <> k0). { intros X. apply N. transitivity (ksub b (ksub b a)); [ring|]. rewrite X. ring. }
        change (@eq (K F) (at_ (prodX l) b) (kdiv (kmul (ksub b a) (at_ (prodX l) b)) (ksub b a))). field. auto.
      * rewrite E. assert (ksub b a <> k0). { intros X. apply N. transitivity (ksub b (ksub b a)); [ring|]. rewrite X. ring. } field. auto.
    + intros [->|E]; [|rewrite E]; ring.
Qed.
Lemma cop_prodX l P : (forall a, In a l -> at_ P a <> k0) -> cop F (prodX l) P.
Proof.
  induction l as [|a l IH]; intros H; cbn [prodX].
  - exists 1, 0. ring.
  - apply cop_m; [apply cop_lin, H; now left|apply IH; intros; apply H; now right].
Qed.
Lemma prodX_app l m : prodX (l ++ m) = prodX l * prodX m.
Proof. induction l as [|a l IH]; cbn [prodX app]; [ring|]. rewrite IH. ring. Qed.
Lemma prodX_perm l m : Permutation l m -> prodX l = prodX m.
Proof. induction 1; cbn [prodX]; [reflexivity|congruence|ring|congruence]. Qed.
Lemma roots_dvd l P : NoDup l -> (forall a, In a l -> at_ P a = k0) -> dvd F (prodX l) P.
Proof.
  intros ND. revert P. induction ND as [|a l Ha ND IH]; intros P H; cbn [prodX].
  - exists P. ring.
  - destruct (IH P) as [Q HQ]; [intros b Hb; apply H; now right|].
    assert (Eq : dvd F (px - pC a) Q).
    { apply (euclid F _ (prodX l)).
      - apply cop_lin. intros E. apply Ha, prodX_at, E.
      - apply factor. rewrite ev_m by apply H1. pose proof (H a (or_introl eq_refl)) as E. rewrite HQ, ev_m in E by apply H1. rewrite <- E. ring. }
    destruct Eq as [R ->]. exists R. rewrite HQ at 1. ring.
Qed.
Lemma root_bound l P : P <> 0 -> NoDup l -> (forall a, In a l -> at_ P a = k0) -> (length l < sz F P)%nat.
Proof.
  intros N ND H. destruct (dvd_sz F _ _ N (roots_dvd l P ND H)) as [S1 _]. destruct (prodX_mon l) as (_ & S2 & _). lia.
Qed.
Lemma pw_sz P n : P <> 0 -> pw P n <> 0 /\ (sz F (pw P n) = n * (sz F P - 1) + 1)%nat /\ lc F (pw P n) = kpow (lc F P) n.
Proof.
  intros N. pose proof (sz_pos F P N). induction n as [|n (N1 & S1 & L)]; cbn [pw kpow].
  - split; [apply I_nz|]. rewrite sz_I. split; [lia|]. apply lc_I.
  - destruct (sz_m F P (pw P n) N N1) as (N2 & S2 & L2). split; auto. split; [lia|]. now rewrite L2, L.
Qed.
Lemma pw_add P m n : pw P (m + n) = pw P m * pw P n.
Proof. induction m as [|m IH]; cbn [pw Nat.add]; [ring|]. rewrite IH. ring. Qed.
End Root.
Arguments prodX {F}.

Section Pow.
Variable L : fld.
Local Open Scope fld_scope.
Definition kth37 := kth L.
Add Field KF37 : kth37.
Definition prth37 := pring L.
Add Ring PR37 : prth37.
Implicit Types x y : L.
Lemma kpow_add x m n : kpow x (m + n) = kpow x m * kpow x n.
Proof. induction m as [|m IH]; cbn [kpow Nat.add]; [ring|]. rewrite IH. ring. Qed.
Lemma kpow_m x y n : kpow (x * y) n = kpow x n * kpow y n.
Proof. induction n as [|n IH]; cbn [kpow]; [ring|]. rewrite IH. ring. Qed.
Lemma kpow_1 n : kpow (1 : L) n = 1. Proof. induction n as [|n IH]; cbn [kpow]; [reflexivity|]. rewrite IH. ring. Qed.
Lemma kpow_mul x m n : kpow x (m * n) = kpow (kpow x n) m.
Proof. induction m as [|m IH]; cbn [kpow Nat.mul]; [reflexivity|]. now rewrite kpow_add, IH. Qed.
Lemma kpow_0 n : (n <> 0)%nat -> kpow (0 : L) n = 0. Proof. destruct n; [contradiction|]. intros _. cbn [kpow]. ring. Qed.
Lemma kpow_nz x n : x <> 0 -> kpow x n <> 0.
Proof.
  intros N. induction n as [|n IH]; cbn [kpow]; [apply one_nz0|]. intros E. apply IH. transitivity (x * kpow x n / x); [change (@eq (K L) (kpow x n) (x * kpow x n / x)); field; auto|].
  rewrite E. field. auto.
Qed.
(** The multiples of 1. *)
Fixpoint kn (n : nat) : L := match n with O => 0 | S n => 1 + kn n end.
Lemma kn_add m n : kn (m + n) = kn m + kn n. Proof. induction m as [|m IH]; cbn [kn Nat.add]; [ring|]. rewrite IH. ring. Qed.
Lemma kn_mul m n : kn (m * n) = kn m * kn n. Proof. induction m as [|m IH]; cbn [kn Nat.mul]; [ring|]. rewrite kn_add, IH. ring. Qed.
Lemma kn_pow m n : kn (m ^ n) = kpow (kn m) n.
Proof. induction n as [|n IH]; cbn [kpow Nat.pow]; [cbn; ring|]. now rewrite kn_mul, IH. Qed.
Section Char.
Variable p : nat.
Hypothesis Hp : prime (Z.of_nat p).
Hypothesis Cp : kn p = 0.
Lemma kn_mod a b : Z.of_nat a mod Z.of_nat p = Z.of_nat b mod Z.of_nat p -> kn a = kn b.
Proof.
  intros E. pose proof (prime_ge_2 _ Hp). assert (E' : (a mod p = b mod p)%nat) by (apply Nat2Z.inj; rewrite !Nat2Z.inj_mod; exact E).
  rewrite (Nat.div_mod a p), (Nat.div_mod b p) by lia. rewrite !kn_add, !kn_mul, Cp, E'. ring.
Qed.
Lemma kn_inj a : (0 < a < p)%nat -> kn a <> 0.
Proof.
  intros Ha E. assert (R : rel_prime (Z.of_nat a) (Z.of_nat p)).
  { apply rel_prime_sym, prime_rel_prime; auto. intros D. apply Z.divide_pos_le in D; lia. }
  destruct (rel_prime_bezout _ _ R) as [u v Huv]. (* u a + v p = 1 *)
  set (w := (u mod Z.of_nat p)%Z). assert (Hw : 0 <= w < Z.of_nat p) by (apply Z.mod_pos_bound; lia).
  apply (one_nz0 L). transitivity (kn 1); [cbn; ring|]. rewrite <- (kn_mod (Z.to_nat w * a) 1).
  - rewrite kn_mul, E. ring.
  - rewrite Nat2Z.inj_mul, Z2Nat.id by lia. unfold w. rewrite Z.mul_mod_idemp_l by lia.
    replace (u * Z.of_nat a)%Z with (Z.of_nat 1 + (- v) * Z.of_nat p)%Z by lia. rewrite Z.mod_add by lia. reflexivity.
Qed.
Lemma kn_fermat a : kpow (kn a) p = kn a.
Proof. rewrite <- kn_pow. apply kn_mod. rewrite Nat2Z.inj_pow. now apply fermat_Z. Qed.
Lemma kn_nodup : NoDup (map kn (seq 0 p)).
Proof.
  apply nodup_map_inj; [|apply seq_NoDup]. intros a b Ha Hb E. apply in_seq in Ha, Hb.
  assert (W : forall a b, (a < p)%nat -> (b < p)%nat -> (a < b)%nat -> kn a = kn b -> False).
  { clear - Hp Cp. intros a b Ha Hb Hl E. apply (kn_inj (b - a)); [lia|]. replace b with (b - a + a)%nat in E by lia. rewrite kn_add in E.
    transitivity (kn (b - a) + kn a - kn a); [change (@eq (K L) (kn (b - a)) (kn (b - a) + kn a - kn a)); ring|]. rewrite <- E. ring. }
  destruct (Nat.lt_trichotomy a b) as [H|[H|H]]; auto; exfalso; [apply (W a b)|apply (W b a)]; auto; lia.
Qed.
(** (x + y)^p = x^p + y^p: both sides of (T + 1)^p = T^p + 1 agree at the p multiples of 1. *)
Lemma freshman1 : pw (pa px pI) p = pa (pw px p) (@pI L).
Proof.
  pose proof (prime_ge_2 _ Hp). set (W := ps (pw (pa px pI) p) (pa (pw px p) pI) : poly L).
  assert (S1 : (sz L (pa (px : poly L) pI) = 2)%nat /\ lc L (pa (px : poly L) pI) = 1).
  { assert (Hl : (sz L pI < sz L px)%nat) by (rewrite sz_I, sz_x; lia). destruct (sz_lt L px pI Hl) as [-> ->]. rewrite sz_x. split; [reflexivity|]. apply lc_x. }
  assert (N1 : pa (px : poly L) pI <> pO) by (apply lc_1_nz, S1).
  destruct (pw_sz L _ p N1) as (_ & SA & LA). destruct (pw_sz L px p (x_nz L)) as (_ & SB & LB). rewrite (proj1 S1) in SA. rewrite (proj2 S1), kpow_1 in LA. rewrite sz_x in SB.
  assert (LX : lc L (px : poly L) = 1) by apply lc_x. rewrite LX, kpow_1 in LB. clear LX.
  assert (SW : (sz L W <= p)%nat).
  { apply sz_le. intros i Hi. unfold W. rewrite cf_s, cf_a. unfold pI at 2. rewrite cf_C. destruct i as [|i]; [lia|].
    destruct (Nat.eq_dec (S i) p) as [E|N].
    - unfold lc in LA, LB. rewrite SA in LA. rewrite SB in LB. replace (p * (2 - 1) + 1 - 1)%nat with (S i) in LA, LB by lia. rewrite LA, LB. ring.
    - rewrite (cf_big L (pw (pa px pI) p)), (cf_big L (pw px p)) by lia. ring. }
  destruct (pdec L W pO) as [E|N].
  - transitivity (pa W (pa (pw px p) pI)); [unfold W; ring|]. rewrite E. ring.
  - exfalso. pose proof (root_bound L (map kn (seq 0 p)) W N kn_nodup) as RB. rewrite map_length, seq_length in RB. assert (p < sz L W)%nat; [|lia]. apply RB.
    intros a Ha. apply in_map_iff in Ha as (k & <- & Hk). unfold W. rewrite ev_s, ev_a, !ev_w, ev_a, ev_x, ev_1 by apply id_hom.
    replace (kn k + 1) with (kn (S k)) by (cbn [kn]; ring). rewrite !kn_fermat. cbn [kn]. ring.
Qed.
Lemma freshman x y : kpow (x + y) p = kpow x p + kpow y p.
Proof.
  pose proof (prime_ge_2 _ Hp). destruct (kdec y 0) as [->|N].
  - rewrite (kpow_0 p) by lia. replace (x + 0) with x by ring. ring.
  - pose proof (f_equal (fun P => at_ P (x / y)) freshman1) as E. cbn beta in E. rewrite ev_a, !ev_w, ev_a, ev_x, ev_1 in E by apply id_hom.
    transitivity (kpow (y * (x / y + 1)) p); [f_equal; change (@eq (K L) (x + y) (y * (x / y + 1))); field; auto|]. rewrite kpow_m, E.
    transitivity (kpow (y * (x / y)) p + kpow y p); [rewrite kpow_m; ring|]. f_equal. f_equal. change (@eq (K L) (y * (x / y)) x). field. auto.
Qed.
Lemma frob_hom : fhom (fun x => kpow x (p * p)).
Proof.
  split; [apply kpow_1|]. split; intros x y; [|apply kpow_m]. rewrite !kpow_mul. now rewrite !freshman.
Qed.
End Char.
End Pow.
Arguments kn {L}.

Section Fin.
Variable F : fld.
Hypothesis two : (kadd k1 k1 : F) <> k0.
Variable elems : list F.
Hypothesis ND : NoDup elems.
Hypothesis Hall : forall x : F, In x elems.
Local Open Scope fld_scope.
Definition kth38 := kth F.
Add Field KF38 : kth38.
Definition prth38 := pring F.
Add Ring PR38 : prth38.
Notation q := (length elems).
Implicit Types a b c x : F.
Definition prodF (l : list F) : F := fold_right kmul 1 l.
Lemma prodF_perm l m : Permutation l m -> prodF l = prodF m.
Proof. induction 1; cbn [prodF fold_right] in *; try fold (prodF l) in *; try fold (prodF l') in *; try congruence; unfold prodF in *; try rewrite IHPermutation; try ring. Qed.
Lemma prodF_scale a l : prodF (map (fun x => a * x) l) = kpow a (length l) * prodF l.
Proof. induction l as [|b l IH]; cbn [prodF map fold_right length kpow]; [ring|]. unfold prodF in IH. rewrite IH. ring. Qed.
Lemma prodF_nz l : (forall x, In x l -> x <> 0) -> prodF l <> 0.
Proof.
  induction l as [|b l IH]; intros H; cbn [prodF fold_right]; [apply one_nz0|]. intros E. pose proof (H b (or_introl eq_refl)) as Nb. apply IH; [intros; apply H; now right|].
  unfold prodF. transitivity (b * fold_right kmul 1 l / b); [change (@eq (K F) (fold_right kmul 1 l) (b * fold_right kmul 1 l / b)); field; auto|]. rewrite E. field. auto.
Qed.
Lemma split0 : exists l m, elems = l ++ 0 :: m. Proof. apply in_split, Hall. Qed.
Lemma fermat_nz a : a <> 0 -> kpow a (q - 1) = 1.
Proof.
  intros Na. destruct split0 as (l & m & E). set (nz := l ++ m).
  assert (NDz : NoDup nz /\ ~ In 0 nz). { rewrite E in ND. split; [now apply NoDup_remove_1 in ND|now apply NoDup_remove_2 in ND]. }
  assert (Lz : (q - 1 = length nz)%nat). { rewrite E. unfold nz. rewrite !app_length. cbn [length]. lia. }
  assert (Iz : forall x, In x nz <-> x <> 0).
  { intros x. split; [intros H X; subst x; now apply NDz|]. intros N. pose proof (Hall x) as H. rewrite E in H. apply in_app_iff in H as [H|[H|H]].
    - apply in_app_iff. auto.
    - exfalso. now apply N.
    - apply in_app_iff. auto. }
  assert (MN : forall x, x <> 0 -> a * x <> 0). { intros x N X. apply N. transitivity (a * x / a); [change (@eq (K F) x (a * x / a)); field; auto|]. rewrite X. field. auto. }
  assert (PM : Permutation (map (fun x => a * x) nz) nz).
  { apply NoDup_Permutation_bis; [|rewrite map_length; lia|].
    - apply nodup_map_inj; [|apply NDz]. intros x y _ _ X. transitivity (a * x / a); [change (@eq (K F) x (a * x / a)); field; auto|]. rewrite X. change (@eq (K F) (a * y / a) y). field. auto.
    - intros y Hy. apply in_map_iff in Hy as (x & <- & Hx). apply Iz, MN, Iz, Hx. }
  apply prodF_perm in PM. rewrite prodF_scale, <- Lz in PM. assert (NP : prodF nz <> 0) by (apply prodF_nz; intros x Hx; now apply Iz).
  transitivity (kpow a (q - 1) * prodF nz / prodF nz); [change (@eq (K F) (kpow a (q - 1)) (kpow a (q - 1) * prodF nz / prodF nz)); field; auto|]. rewrite PM. field. auto.
Qed.
Lemma q_pos : (1 <= q)%nat. Proof. destruct split0 as (l & m & ->). rewrite app_length. cbn [length]. lia. Qed.
Lemma fermat_F a : kpow a q = a.
Proof.
  pose proof q_pos. destruct (kdec a 0) as [->|N]; [apply kpow_0; lia|]. replace q with (1 + (q - 1))%nat by lia. rewrite kpow_add, (fermat_nz a N). cbn [kpow]. ring.
Qed.
Lemma q_ge2 : (2 <= q)%nat.
Proof.
  destruct split0 as (l & m & E). pose proof (Hall 1) as H. rewrite E in H |- *. rewrite app_length. cbn [length]. apply in_app_iff in H. destruct l, m; cbn [length]; try lia.
  exfalso. destruct H as [[]|[X|[]]]. symmetry in X. now apply one_nz0 in X.
Qed.
(** X^q - X is the product of all X - a. *)
Lemma all_roots : ps (pw px q) px = prodX elems.
Proof.
  pose proof q_ge2. assert (S1 : sz F (pw px q) = S q /\ lc F (pw px q) = 1).
  { destruct (pw_sz F px q (x_nz F)) as (_ & -> & ->). rewrite sz_x. split; [lia|]. assert (LX : lc F (px : poly F) = 1) by apply lc_x. rewrite LX. apply kpow_1. }
  assert (S2 : sz F (ps (pw px q) px) = S q /\ lc F (ps (pw px q) px) = 1).
  { unfold ps. assert (Hl : (sz F (po px) < sz F (pw px q))%nat) by (rewrite sz_o, sz_x; lia). destruct (sz_lt F _ _ Hl) as [-> ->]. exact S1. }
  assert (NW : ps (pw px q) px <> (pO : poly F)) by (apply lc_1_nz, S2).
  destruct (roots_dvd F elems (ps (pw px q) px) ND) as [Q HQ].
  { intros a _. rewrite ev_s, ev_w, ev_x, fermat_F by apply id_hom. ring. }
  destruct (prodX_mon F elems) as (N3 & S3 & L3). assert (NQ : Q <> pO) by (intros ->; apply NW; rewrite HQ; ring).
  destruct (sz_m F Q _ NQ N3) as (_ & S4 & L4). rewrite <- HQ in S4, L4. rewrite (proj1 S2), S3 in S4. rewrite (proj2 S2), L3 in L4.
  pose proof (sz1 F Q ltac:(lia)) as EQ. unfold lc in L4. replace (sz F Q - 1)%nat with 0%nat in L4 by lia.
  assert (C1 : cf Q 0 = 1) by (transitivity (cf Q 0 * 1); [ring|auto]). rewrite HQ, EQ, C1. change (pm pI (prodX elems) = prodX elems). ring.
Qed.
(** Euler's criterion *)
Variable m : nat.
Hypothesis Hm : (q = 2 * m + 1)%nat.
Lemma geo (P : poly F) (Q : poly F) n : dvd F (ps P Q) (ps (pw P n) (pw Q n)).
Proof.
  induction n as [|n [R HR]]; cbn [pw]; [exists pO; ring|]. exists (pa (pw P n) (pm Q R)).
  transitivity (pa (pm (ps P Q) (pw P n)) (pm Q (ps (pw P n) (pw Q n)))); [ring|]. rewrite HR. ring.
Qed.
Lemma euler_sq c : kpow c m = 1 -> exists b, b * b = c.
Proof.
  intros E. set (S := ps (pm px px) (pC c)). assert (D : dvd F S (prodX elems)).
  { rewrite <- all_roots, Hm. destruct (geo (pm px px) (pC c) m) as [R HR]. exists (pm px R).
    assert (E1 : pw (pC c) m = pI). { unfold pI. rewrite <- E. clear. induction m as [|n IH]; cbn [pw kpow]; [reflexivity|]. now rewrite C_mul, IH. }
    assert (E2 : pw (px : poly F) (2 * m + 1) = pm px (pw (pm px px) m)).
    { rewrite pw_add. cbn [pw]. assert (X : pw (px : poly F) (2 * m) = pw (pm px px) m); [|rewrite X; ring]. clear. induction m as [|n IH]; [reflexivity|]. replace (2 * Datatypes.S n)%nat with (Datatypes.S (Datatypes.S (2 * n))) by lia. cbn [pw]. rewrite IH. ring. }
    rewrite E2. transitivity (pm px (ps (pw (pm px px) m) (pw (pC c) m))); [rewrite E1; ring|]. rewrite HR. unfold S. ring. }
  destruct (in_dec kdec c (map (fun b => b * b) elems)) as [H|H].
  - apply in_map_iff in H as (b & Hb & _). eauto.
  - exfalso. assert (C : cop F (prodX elems) S).
    { apply cop_prodX. intros a _. unfold S. rewrite ev_s, ev_m, ev_x, ev_C by apply id_hom. unfold idF. intros X. apply H. apply in_map_iff. exists a. split; [|apply Hall].
      transitivity (a * a - c + c); [ring|]. rewrite X. ring. }
    destruct D as [R HR]. destruct C as (u & v & C). assert (D1 : dvd F S pI) by (exists (pa (pm u R) v); rewrite <- C, HR; ring).
    destruct (dvd_one F S D1) as (SS & _). assert (S3 : sz F S = 3%nat); [|lia].
    unfold S, ps. destruct (sz_m F px px (x_nz F) (x_nz F)) as (_ & S2 & _). rewrite sz_x in S2.
    assert (SC : (sz F (pC c) <= 1)%nat). { apply sz_le. intros [|i] Hi; [lia|]. now rewrite cf_C. }
    assert (Hl : (sz F (po (pC c)) < sz F (pm px px))%nat) by (rewrite sz_o; lia). destruct (sz_lt F _ _ Hl) as [-> _]. lia.
Qed.
Lemma euler_pm c : c <> 0 -> kpow c m = 1 \/ kpow c m = - (1).
Proof.
  intros N. assert (E : (kpow c m - 1) * (kpow c m + 1) = 0).
  { transitivity (kpow c (m + m) - 1); [rewrite kpow_add; ring|]. replace (m + m)%nat with (q - 1)%nat by lia. rewrite fermat_nz by auto. ring. }
  destruct (kdec (kpow c m) 1) as [|N1]; [auto|right]. assert (N2 : kpow c m - 1 <> 0). { intros X. apply N1. transitivity (kpow c m - 1 + 1); [change (@eq (K F) (kpow c m) (kpow c m - 1 + 1)); ring|]. rewrite X. ring. }
  transitivity ((kpow c m - 1) * (kpow c m + 1) / (kpow c m - 1) - 1); [change (@eq (K F) (kpow c m) ((kpow c m - 1) * (kpow c m + 1) / (kpow c m - 1) - 1)); field; auto|]. rewrite E. field. auto.
Qed.
Lemma euler_1 b : b <> 0 -> kpow (b * b) m = 1.
Proof. intros N. transitivity (kpow b (m + m)); [rewrite kpow_m, kpow_add; reflexivity|]. replace (m + m)%nat with (q - 1)%nat by lia. now apply fermat_nz. Qed.
End Fin.
