(** SIDH over a field: key generation and agreement. *)
From Coq Require Import Field.
From Verif Require Import Base BaseP Out Params Ops Ec Models Sidh Fld FieldOps CurveSpec IsogSpec ModelSpec XSpec WalkSpec FldCurve GroupP MultP OrderP LadderP IsoP FldIsog FldModels
  XLine XIso Strategy XChain CheckP XIsog WalkP SquareP KumP GridP Lad3P BasisP.
Set Bullet Behavior "Strict Subproofs".

Lemma pow_pred (l e : nat) : (1 <= e)%nat -> (l ^ e = l * l ^ (e - 1))%nat.
Proof. intros. replace e with (S (e - 1)) at 1 by lia. reflexivity. Qed.
Section RowsL.
Variable O : fops.
Variables (C co : Type) (mulm : C -> nat -> pt O -> pt O) (get : pt O -> C * co) (ev : co -> pt O -> pt O) (maxr maxint : nat).
Lemma rowsL_rows k : forall row c index R Qs stack strat c' R',
  rows O C co mulm get ev maxr maxint k row c index R None stack strat = Ok (c', R', None) ->
  exists Qs', rowsL O C co mulm get ev maxr maxint k row c index R Qs stack strat = Ok (c', R', Qs') /\
    Forall2 (fun Q Q' => rows O C co mulm get ev maxr maxint k row c index R (Some Q) stack strat = Ok (c', R', Some Q')) Qs Qs'.
Proof.
  induction k as [|k IH]; intros row c index R Qs stack strat c' R' H; cbn [rows rowsL] in *.
  - injection H as -> ->. exists Qs. split; [reflexivity|]. induction Qs; constructor; auto.
  - destruct (descend O C mulm maxint (S maxint) c (maxr - row) index R stack strat) as [[[[i1 R1] st1] str1]| | | |]; cbn [bind] in *; try discriminate.
    destruct (get R1) as [c1 co1]. cbn [omap] in *.
    destruct (map (fun s => (ev co1 (fst s), snd s)) st1) as [|[R2 i2] st2]; [discriminate|].
    destruct (IH (S row) c1 i2 R2 (map (ev co1) Qs) st2 str1 c' R' H) as (Qs' & E & Hf).
    exists Qs'. split; [exact E|]. clear - Hf. remember (map (ev co1) Qs) as L eqn:EL. revert Qs EL.
    induction Hf as [|Q Q' L L' HQ _ IHf]; intros [|q Qs] EL; try discriminate; constructor.
    + injection EL as -> ->. exact HQ.
    + apply IHf. now injection EL.
Qed.
End RowsL.

Section SP.
Variable F : fld.
Variables (unit : F) (sqrt : F -> F) (lt : F -> F -> bool) (enc : F -> list Z) (dec : list Z -> F) (rnd : tape -> out (F * tape)).
Local Notation O := (fld_ops F unit sqrt lt enc dec rnd).
Hypothesis two : (kadd k1 k1 : F) <> k0.
Local Open Scope fld_scope.
Definition kth16 := kth F.
Add Field KF16 : kth16.
Ltac toF_eq := match goal with |- ?a = ?b => change (@eq (K F) a b) end.
Local Notation repp := (repp F unit sqrt lt enc dec rnd).
Local Notation orelp := (orel O (xl F) repp).
Local Notation crel4 := (crel4 F). Local Notation crel3 := (crel3 F). Local Notation ord4 := (ord4 F). Local Notation ord3 := (ord3 F).
Variable P : params.
Hypothesis HS : strat_good P.
Notation e2 := (e2 P). Notation e3 := (e3 P).

Lemma none_rel r : orelp None r. Proof. exact I. Qed.
Lemma trav4_list c A R Qs q rs A1 f : crel4 c A -> ord4 (max_alice P) A q -> repp R q -> C4 F (max_alice P) A q A1 f ->
  Forall2 repp Qs rs -> exists c1 R1 Qs1,
    traverseL O _ _ (mulm_A O) (get_4_isog O) (eval_4_isog O) (max_alice P) (max_int_alice P) c R Qs (strat_alice P) = Ok (c1, R1, Qs1) /\
    crel4 (fst (get_4_isog O R1)) A1 /\ Forall2 (fun Q r => repp (eval_4_isog O (snd (get_4_isog O R1)) Q) (f r)) Qs1 rs.
Proof.
  intros Hc Ho HR Hf HQ. destruct HS as (_ & _ & _ & _ & S4 & _).
  assert (T : forall Q r, orelp Q r -> exists c' R' Q', traverse O _ _ (mulm_A O) (get_4_isog O) (eval_4_isog O) (max_alice P) (max_int_alice P) c R Q (strat_alice P) = Ok (c', R', Q') /\
    crel4 (fst (get_4_isog O R')) A1 /\ orelp (omap O (eval_4_isog O (snd (get_4_isog O R'))) Q') (f r) /\ (Q = None -> Q' = None)).
  { intros Q r Hr. destruct (traverse4 F unit sqrt lt enc dec rnd two _ _ c A R Q r q _ S4 Hc Ho HR Hr) as (c' & R' & Q' & A' & k1 & ks & E & (HA' & _) & Hk & HR' & HQ' & W & _ & _ & Q1 & _).
    destruct Hk as (m & Nm & E1 & E2). pose proof (walk_chain4 F _ _ _ _ _ r W) as Wc. rewrite Hf in Wc.
    assert (EA : A1 = A4 k1) by congruence.
    exists c', R', Q'. split; [exact E|]. split; [|split].
    - subst A1. split; [apply (cod4 F two A' HA' k1 m Nm E1 E2)|]. apply (get4_rep F unit sqrt lt enc dec rnd two k1 R' HR').
    - eapply orel_map; [|exact HQ']. intros S0 HS0.
      assert (Ef : f r = image (xl F) F phi4x (ks ++ [k1]) r) by congruence. rewrite Ef, (image_snoc phi4x).
      apply (ev4_rep F unit sqrt lt enc dec rnd two A' HA' k1 m Nm E1 E2); auto.
    - exact Q1. }
  destruct (T None XInf (none_rel _)) as (c1 & R1 & Q1 & E1 & G1 & _ & N1). rewrite (N1 eq_refl) in E1. unfold traverse in E1.
  destruct (rowsL_rows O _ _ _ _ _ _ _ _ _ _ _ _ Qs _ _ _ _ E1) as (Qs1 & EL & HL).
  exists c1, R1, Qs1. split; [exact EL|]. split; [exact G1|].
  clear - HL HQ T. revert rs HQ. induction HL as [|Q Q' L L' HQ' _ IH]; intros rs HF; inversion HF as [|? r ? rs' Hr HF']; subst; constructor; auto.
  destruct (T (Some Q) r Hr) as (c2 & R2 & Q2 & E2 & _ & G2 & _). unfold traverse in E2. rewrite HQ' in E2.
  assert (R2 = R1) by congruence. assert (Q2 = Some Q') by congruence. subst. exact G2.
Qed.
Lemma trav3_list c A R Qs q rs A1 f : crel3 c A -> ord3 (max_bob P) A q -> repp R q -> C3 F (max_bob P) A q A1 f ->
  Forall2 repp Qs rs -> exists c1 R1 Qs1,
    traverseL O _ _ (mulm_B O) (get_3_isog O) (eval_3_isog O) (max_bob P) (max_int_bob P) c R Qs (strat_bob P) = Ok (c1, R1, Qs1) /\
    crel3 (fst (get_3_isog O R1)) A1 /\ Forall2 (fun Q r => repp (eval_3_isog O (snd (get_3_isog O R1)) Q) (f r)) Qs1 rs.
Proof.
  intros Hc Ho HR Hf HQ. destruct HS as (_ & _ & _ & _ & _ & S4).
  assert (T : forall Q r, orelp Q r -> exists c' R' Q', traverse O _ _ (mulm_B O) (get_3_isog O) (eval_3_isog O) (max_bob P) (max_int_bob P) c R Q (strat_bob P) = Ok (c', R', Q') /\
    crel3 (fst (get_3_isog O R')) A1 /\ orelp (omap O (eval_3_isog O (snd (get_3_isog O R'))) Q') (f r) /\ (Q = None -> Q' = None)).
  { intros Q r Hr. destruct (traverse3 F unit sqrt lt enc dec rnd two _ _ c A R Q r q _ S4 Hc Ho HR Hr) as (c' & R' & Q' & A' & k1 & ks & E & (HA' & _) & Hk & HR' & HQ' & W & _ & _ & Q1 & _).
    pose proof (walk_chain3 F _ _ _ _ _ r W) as Wc. rewrite Hf in Wc.
    assert (EA : A1 = A3 A' k1) by congruence.
    exists c', R', Q'. split; [exact E|]. split; [|split].
    - subst A1. split; [apply (cod3 F unit sqrt lt enc dec rnd two A' HA' k1 Hk)|]. apply (get3_rep F unit sqrt lt enc dec rnd two A' HA' k1 Hk R' HR').
    - eapply orel_map; [|exact HQ']. intros S0 HS0.
      assert (Ef : f r = image (xl F) F phi3x (ks ++ [k1]) r) by congruence. rewrite Ef, (image_snoc phi3x).
      apply (ev3_rep F unit sqrt lt enc dec rnd two A' HA' k1 Hk); auto.
    - exact Q1. }
  destruct (T None XInf (none_rel _)) as (c1 & R1 & Q1 & E1 & G1 & _ & N1). rewrite (N1 eq_refl) in E1. unfold traverse in E1.
  destruct (rowsL_rows O _ _ _ _ _ _ _ _ _ _ _ _ Qs _ _ _ _ E1) as (Qs1 & EL & HL).
  exists c1, R1, Qs1. split; [exact EL|]. split; [exact G1|].
  clear - HL HQ T. revert rs HQ. induction HL as [|Q Q' L L' HQ' _ IH]; intros rs HF; inversion HF as [|? r ? rs' Hr HF']; subst; constructor; auto.
  destruct (T (Some Q) r Hr) as (c2 & R2 & Q2 & E2 & _ & G2 & _). unfold traverse in E2. rewrite HQ' in E2.
  assert (R2 = R1) by congruence. assert (Q2 = Some Q') by congruence. subst. exact G2.
Qed.
Lemma F2_map {X Y} (R : X -> Y -> Prop) (g : X -> X) (h : Y -> Y) xs ys : (forall x y, R x y -> R (g x) (h y)) -> Forall2 R xs ys -> Forall2 R (map g xs) (map h ys).
Proof. intros H. induction 1; constructor; auto. Qed.
Lemma kex_A_ok a c A R Qs q rs A1 f : crel4 (a, c) A -> G2 F e2 A q -> repp R q -> C2 F e2 A q A1 f -> Forall2 repp Qs rs ->
  exists c1 Qs1, kex_iso_A O P a c R Qs = Ok (c1, Qs1) /\ crel4 c1 A1 /\ Forall2 repp Qs1 (map f rs).
Proof.
  intros Hc HG HR Hf HQ. pose proof HS as (L2 & _ & Ea & _ & _ & _). pose proof (half e2) as Hn.
  assert (Hh : (1 <= e2 / 2)%nat) by (destruct (Nat.odd e2); lia).
  assert (End : forall c A R Qs q rs A1 f, crel4 c A -> ord4 (max_alice P) A q -> repp R q -> C4 F (max_alice P) A q A1 f -> Forall2 repp Qs rs ->
    exists c1 Qs1, (do (_, R, Qs) <- traverseL O _ _ (mulm_A O) (get_4_isog O) (eval_4_isog O) (max_alice P) (max_int_alice P) c R Qs (strat_alice P);;
      let '(c, coeff) := get_4_isog O R in Ok (c, map (eval_4_isog O coeff) Qs)) = Ok (c1, Qs1) /\ crel4 c1 A1 /\ Forall2 repp Qs1 (map f rs)).
  { clear - two HS. intros c A R Qs q rs A1 f Hc Ho HR Hf HQ.
    destruct (trav4_list c A R Qs q rs A1 f Hc Ho HR Hf HQ) as (c1 & R1 & Qs1 & E & H1 & H2). rewrite E. cbn [bind].
    destruct (get_4_isog O R1) as [c2 co]. exists c2, (map (eval_4_isog O co) Qs1). split; [reflexivity|]. split; [exact H1|].
    clear - H2. cbn [snd] in H2. induction H2; constructor; auto. }
  unfold kex_iso_A. destruct HG as (_ & m & Hm & Em). destruct Hc as (HA & Nc & Hac). cbn [fst snd] in *.
  destruct (Nat.odd e2) eqn:Eo.
  - assert (HSr : repp (xDBLe O R a c (e2 - 1)) (XF m)) by (rewrite <- Em; apply (dble_rep F unit sqrt lt enc dec rnd two A HA); auto).
    set (S0 := xDBLe O R a c (e2 - 1)) in *.
    pose proof (cod2 F two A HA m Hm) as HA2. pose proof (get2_rep F unit sqrt lt enc dec rnd m S0 HSr) as [G1 G2].
    destruct (get_2_isog O S0) as [a2 c2]. cbn [fst snd] in G1, G2.
    assert (Ho : ord4 (max_alice P) (A2 m) (phi2x m q)).
    { rewrite Ea. apply (next2 F unit sqrt lt enc dec rnd two A (e2 / 2) q m HA); auto. replace (2 * (e2 / 2))%nat with (e2 - 1)%nat by lia. exact Em. }
    destruct (col4 F two (max_alice P) _ _ HA2 (or_intror Ho)) as (A1' & f' & _ & Hc' & _).
    assert (Eq : forall r, (A1', f' (phi2x m r)) = (A1, f r)).
    { intros r. pose proof (Hf r) as H. unfold chain2 in H. rewrite Eo, Em, <- Ea, Hc' in H. congruence. }
    assert (A1' = A1) by (specialize (Eq XInf); congruence). subst A1'.
    assert (Ef : forall r, f' (phi2x m r) = f r) by (intros r; specialize (Eq r); congruence).
    destruct (End (a2, c2) (A2 m) (eval_2_isog O R S0) (map (fun q0 => eval_2_isog O q0 S0) Qs) (phi2x m q) (map (phi2x m) rs) A1 f') as (c1 & Qs1 & E & H1 & H2).
    + split; auto.
    + exact Ho.
    + apply (ev2_rep F unit sqrt lt enc dec rnd two A HA m Hm); auto.
    + exact Hc'.
    + apply F2_map; [|exact HQ]. intros. apply (ev2_rep F unit sqrt lt enc dec rnd two A HA m Hm); auto.
    + exists c1, Qs1. split; [exact E|]. split; [exact H1|]. rewrite map_map in H2. rewrite (map_ext f (fun r => f' (phi2x m r))); auto.
  - apply (End (a, c) A R Qs q rs A1 f); auto.
    + split; auto.
    + rewrite Ea. exists m. split; [apply Hm|]. split; [|apply Hm]. replace (2 * (e2 / 2) - 1)%nat with (e2 - 1)%nat by lia. exact Em.
    + intros r. pose proof (Hf r) as H. unfold chain2 in H. rewrite Eo, <- Ea in H. exact H.
Qed.
Lemma kex_B_ok a c A R Qs q rs A1 f : crel3 (a, c) A -> ord3 e3 A q -> repp R q -> C3 F e3 A q A1 f -> Forall2 repp Qs rs ->
  exists c1 Qs1, kex_iso_B O P a c R Qs = Ok (c1, Qs1) /\ crel3 c1 A1 /\ Forall2 repp Qs1 (map f rs).
Proof.
  intros Hc Ho HR Hf HQ. pose proof HS as (_ & _ & _ & Ea & _ & _). rewrite <- Ea in Ho, Hf.
  destruct (trav3_list (a, c) A R Qs q rs A1 f Hc Ho HR Hf HQ) as (c1 & R1 & Qs1 & E & H1 & H2). unfold kex_iso_B. cbn [T fld_ops] in *. rewrite E. cbn [bind].
  destruct (get_3_isog O R1) as [c2 co]. exists c2, (map (eval_3_isog O co) Qs1). split; [reflexivity|]. split; [exact H1|].
  clear - H2. cbn [snd] in H2. induction H2; constructor; auto.
Qed.
(** ** Encoding of public keys *)
Lemma rep_div (Q : pt O) x : repp Q (XF x) -> (pX Q : F) = x * pZ Q /\ (pZ Q : F) <> 0. Proof. intros [H1 H2]. auto. Qed.
Lemma pack3_ok (Q1 Q2 Q3 : pt O) x1 x2 x3 : repp Q1 (XF x1) -> repp Q2 (XF x2) -> repp Q3 (XF x3) ->
  pack3 O Q1 Q2 Q3 = enc x1 ++ enc x2 ++ enc x3.
Proof.
  intros H1 H2 H3. apply rep_div in H1 as [E1 N1]. apply rep_div in H2 as [E2 N2]. apply rep_div in H3 as [E3 N3].
  unfold pack3, inv_3_way. cbn [fld_ops o_mul o_inv o_enc]. rewrite E1, E2, E3. repeat f_equal; toF_eq; field; repeat split; auto.
Qed.
(** ** The starting curve y^2 = x^3 + 6 x^2 + x *)
Definition A0 : F := 2 + (2 + 2).
Lemma HA0 : A0 * A0 <> 4.
Proof.
  intros E. assert (Y : 2 * (4 * 4) = 0 :> F) by (transitivity (A0 * A0 - 4); [unfold A0; ring|rewrite E; ring]).
  revert Y. repeat apply (mul_nz F); auto.
Qed.
Lemma start4 : crel4 (2 + 2 + (2 + 2), 2 + 2) A0.
Proof. split; [exact HA0|]. cbn [fst snd]. split; [|unfold A0; ring]. replace (2 + 2) with (4 : F) by ring. exact (four_nz F two). Qed.
Lemma start3 : crel3 (2 + 2, 2 + 2 + (2 + 2)) A0.
Proof. split; [exact HA0|]. exists 1. cbn [fst snd]. split; [apply (one_nz F)|]. unfold A0. split; ring. Qed.
Variables gA gB : gens O.
Variables PA QA PB QB : point F.
Local Notation on := (on A0 1). Local Notation padd := (padd A0 1). Local Notation pmul := (pmul A0 1).
Hypothesis bA : basis A0 1 2 e2 PA QA.
Hypothesis b0 : pmul (2 ^ (e2 - 1)) QA = Aff 0 0.
Hypothesis bB : basis A0 1 3 e3 PB QB.
Hypothesis xPA : xof PA = XF (gP gA). Hypothesis xQA : xof QA = XF (gQ gA). Hypothesis xRA : xof (padd PA (neg QA)) = XF (gR gA).
Hypothesis xPB : xof PB = XF (gP gB). Hypothesis xQB : xof QB = XF (gQ gB). Hypothesis xRB : xof (padd PB (neg QB)) = XF (gR gB).
Notation w := (radix P).
(** The bits of a private key. *)
Definition bits (sk : list Z) (i : nat) : bool := match ladder_bit w (key_digits w sk) i with Ok b => b | _ => false end.
Definition readable (sk : list Z) (N : nat) : Prop := forall i, (i < N)%nat -> exists b, ladder_bit w (key_digits w sk) i = Ok b.
Lemma bits_ok sk N : readable sk N -> forall i, (i < N)%nat -> ladder_bit w (key_digits w sk) i = Ok (bits sk i).
Proof. intros H i Hi. unfold bits. destruct (H i Hi) as [b ->]. reflexivity. Qed.

Notation one_nz' := (one_nz F).
Notation accA sk := (acc F A0 1 PA QA (bits sk)). Notation difA sk := (dif F A0 1 PA QA (bits sk)).
Notation accB sk := (acc F A0 1 PB QB (bits sk)). Notation difB sk := (dif F A0 1 PB QB (bits sk)).
Notation goodA := (good F A0 1 QA 2 e2). Notation goodB := (good F A0 1 QB 3 e3).
Lemma e2_pos : (2 <= e2)%nat. Proof. apply HS. Qed.
Lemma e3_pos : (1 <= e3)%nat. Proof. apply HS. Qed.
Lemma accA_good sk i : goodA (accA sk i).
Proof. destruct bA as (H1 & H2 & H3 & H4 & H5 & H6). apply (good_acc F two A0 1 HA0 one_nz'); auto; pose proof e2_pos; lia. Qed.
Lemma difA_good sk i : goodA (difA sk i).
Proof. destruct bA as (H1 & H2 & H3 & H4 & H5 & H6). apply (good_dif F two A0 1 HA0 one_nz'); auto; pose proof e2_pos; lia. Qed.
Lemma accB_good sk i : goodB (accB sk i).
Proof. destruct bB as (H1 & H2 & H3 & H4 & H5 & H6). apply (good_acc F two A0 1 HA0 one_nz'); auto; pose proof e3_pos; lia. Qed.
Lemma difB_good sk i : goodB (difB sk i).
Proof. destruct bB as (H1 & H2 & H3 & H4 & H5 & H6). apply (good_dif F two A0 1 HA0 one_nz'); auto; pose proof e3_pos; lia. Qed.
Lemma goodA_nz M : goodA M -> nz F (xof M).
Proof.
  intros HG. split.
  - intros E. apply (good_inf F A0 1 QA 2 e2 M HG). now apply xinf.
  - intros E. destruct HG as (Ho & _ & Hi). apply (zero_pt F A0 1 one_nz') in E; auto. subst M. apply (Hi (2 ^ (e2 - 1))%nat). now rewrite b0.
Qed.
Lemma goodB_nz M : goodB M -> nz F (xof M).
Proof. intros HG. pose proof (good_inf F A0 1 QB 3 e3 M HG) as N. destruct HG as (Ho & Hk & _). apply (nz3 F two A0 1 HA0 one_nz' e3); auto. Qed.
Lemma goodA_G2 M : goodA M -> G2 F e2 A0 (xof M).
Proof.
  intros (Ho & Hk & Hi). pose proof e2_pos. split; [lia|]. rewrite (dbl_pt F two A0 1 HA0 one_nz') by auto.
  assert (H2 : pmul 2 (pmul (2 ^ (e2 - 1)) M) = Inf).
  { rewrite <- (pmul_mul F two A0 1 HA0 one_nz') by auto. rewrite <- (pow_pred 2 e2) by lia. exact Hk. }
  destruct (two_tor F two A0 1 HA0 one_nz' _ (pmul_on F two A0 1 HA0 one_nz' _ _ Ho) H2) as [E|(x & E & [->|Hx])].
  - exfalso. apply (Hi 0%nat). rewrite E. reflexivity.
  - exfalso. apply (Hi 1%nat). rewrite E, b0. reflexivity.
  - exists x. split; [auto|]. rewrite E. reflexivity.
Qed.
Lemma goodB_ord M : goodB M -> ord3 e3 A0 (xof M).
Proof.
  intros (Ho & Hk & Hi). pose proof e3_pos. unfold XChain.ord3. rewrite (tpl_pt F two A0 1 HA0 one_nz') by auto.
  pose proof (pmul_on F two A0 1 HA0 one_nz' (3 ^ (e3 - 1)) M Ho) as HoN.
  destruct (pmul (3 ^ (e3 - 1)) M) as [|x y] eqn:E; [exfalso; apply (Hi 0%nat); reflexivity|].
  exists x. split; [reflexivity|]. pose proof (tpl_pt F two A0 1 HA0 one_nz' 1 (Aff x y) HoN) as T. cbn [Nat.iter nat_rect] in T. change (XF x) with (xof (Aff x y)). rewrite T.
  rewrite <- E. rewrite <- (pmul_mul F two A0 1 HA0 one_nz') by auto. change (3 ^ 1)%nat with 3%nat. rewrite <- (pow_pred 3 e3) by lia. rewrite Hk. reflexivity.
Qed.
(** ** Key generation *)
Lemma ladA sk : readable sk e2 -> exists R, LADDER3PT O w (gP gA) (gQ gA) (gR gA) (key_digits w sk) e2 A0 = Ok R /\ repp R (xof (accA sk e2)).
Proof.
  intros Hr. destruct bA as (H1 & H2 & _).
  destruct (LADDER3PT_ok F unit sqrt lt enc dec rnd two A0 w (key_digits w sk) e2 (bits sk) (fun i => xof (pmul (2 ^ i) QA)) (fun i => xof (accA sk i)) (fun i => xof (difA sk i))
    (gP gA) (gQ gA) (gR gA) HA0 (bits_ok sk e2 Hr)) as (R & E & H); eauto.
  - apply (lad3_pt F two A0 1 HA0 one_nz'); auto. intros i _. split; apply goodA_nz; [apply accA_good|apply difA_good].
  - rewrite <- xQA. f_equal. apply (MultP.pmul_1 F A0 1).
  - rewrite <- xRA. unfold dif. cbn [acc]. do 3 f_equal. apply (MultP.pmul_1 F A0 1).
Qed.
Lemma ladB sk : readable sk (bob_bits P) -> exists R, LADDER3PT O w (gP gB) (gQ gB) (gR gB) (key_digits w sk) (bob_bits P) A0 = Ok R /\ repp R (xof (accB sk (bob_bits P))).
Proof.
  intros Hr. destruct bB as (H1 & H2 & _).
  destruct (LADDER3PT_ok F unit sqrt lt enc dec rnd two A0 w (key_digits w sk) (bob_bits P) (bits sk) (fun i => xof (pmul (2 ^ i) QB)) (fun i => xof (accB sk i)) (fun i => xof (difB sk i))
    (gP gB) (gQ gB) (gR gB) HA0 (bits_ok sk _ Hr)) as (R & E & H); eauto.
  - apply (lad3_pt F two A0 1 HA0 one_nz'); auto. intros i _. split; apply goodB_nz; [apply accB_good|apply difB_good].
  - rewrite <- xQB. f_equal. apply (MultP.pmul_1 F A0 1).
  - rewrite <- xRB. unfold dif. cbn [acc]. do 3 f_equal. apply (MultP.pmul_1 F A0 1).
Qed.
Lemma goodA_P : goodA PA. Proof. destruct bA as (H1 & H2 & H3 & H4 & H5 & H6). split; auto. Qed.
Lemma goodB_P : goodB PB. Proof. destruct bB as (H1 & H2 & H3 & H4 & H5 & H6). split; auto. Qed.
Lemma goodA_R : goodA (padd PA (neg QA)).
Proof. replace (padd PA (neg QA)) with (difA [] 0%nat) by (unfold dif; cbn [acc]; do 2 f_equal; apply (MultP.pmul_1 F A0 1)). apply difA_good. Qed.
Lemma goodB_R : goodB (padd PB (neg QB)).
Proof. replace (padd PB (neg QB)) with (difB [] 0%nat) by (unfold dif; cbn [acc]; do 2 f_equal; apply (MultP.pmul_1 F A0 1)). apply difB_good. Qed.
Lemma QA_nz : nz F (xof QA).
Proof.
  destruct bA as (_ & HQ & _ & _ & _ & _). split; intros E.
  - apply xinf in E. pose proof b0 as Y. rewrite E, (pmul_inf F A0 1) in Y. discriminate.
  - apply (zero_pt F A0 1 one_nz') in E; auto. pose proof b0 as Y. rewrite E in Y. pose proof e2_pos.
    destruct (two_zero F two A0 1 HA0 one_nz' (e2 - 1)) as [Z0|Z0]; [rewrite Z0 in Y; discriminate|lia].
Qed.
Lemma QB_inf : QB <> Inf.
Proof. destruct bB as (_ & _ & _ & _ & H5 & _). intros ->. apply H5. apply (pmul_inf F A0 1). Qed.
Lemma nz_fin q : nz F q -> exists x, q = XF x /\ x <> 0.
Proof. intros [N1 N2]. destruct q as [|x]; [contradiction|]. exists x. split; auto. congruence. Qed.
Lemma rep1 x : repp (@mkPt O (x : F) (1 : F)) (XF x).
Proof. split; [apply (one_nz F)|cbn; ring]. Qed.
Definition colA sk A1 f : Prop := col F (C2 F e2) e2 A0 (xof (accA sk e2)) A1 f.
Definition rowB sk Ap g : Prop := row F e3 A0 (xof (accB sk (bob_bits P))) Ap g.
Lemma imgB_nz sk A1 f M : colA sk A1 f -> on M -> pmul (3 ^ e3) M = Inf -> M <> Inf -> nz F (f (xof M)).
Proof. intros (_ & _ & Hh & Hk & _) Ho H3 Hn. apply (nz3_img F two A0 1 HA0 one_nz' A1 f e2 e3); auto. Qed.
Lemma imgA_nz sk Ap g M : rowB sk Ap g -> on M -> pmul (2 ^ e2) M = Inf -> nz F (xof M) -> nz F (g (xof M)).
Proof. intros (_ & _ & Hh & Hk & Hm) Ho H2 Hn. apply (nz2_img F two A0 1 HA0 one_nz' Ap g e3 e2); auto. Qed.
Lemma keyA sk : readable sk e2 -> exists A1 f x1 x2 x3, colA sk A1 f /\ x1 <> 0 /\ x2 <> 0 /\ x3 <> 0 /\
  f (XF (gP gB)) = XF x1 /\ f (XF (gQ gB)) = XF x2 /\ f (XF (gR gB)) = XF x3 /\ EphemeralKeyGeneration_A O P gA gB sk = Ok (enc x1 ++ enc x2 ++ enc x3).
Proof.
  intros Hr. destruct (ladA sk Hr) as (R & ER & HR).
  pose proof (goodA_G2 _ (accA_good sk e2)) as HG. destruct (col2 F two e2 A0 _ HA0 HG) as (A1 & f & Hc).
  pose proof bB as (HPB & HQB & KPB & KQB & _ & _).
  destruct (nz_fin _ (imgB_nz sk A1 f PB Hc HPB KPB (good_inf F A0 1 QB 3 e3 PB goodB_P))) as (x1 & E1 & N1).
  destruct (nz_fin _ (imgB_nz sk A1 f QB Hc HQB KQB QB_inf)) as (x2 & E2 & N2).
  pose proof goodB_R as GR. destruct (nz_fin _ (imgB_nz sk A1 f _ Hc (proj1 GR) (proj1 (proj2 GR)) (good_inf F A0 1 QB 3 e3 _ GR))) as (x3 & E3 & N3).
  rewrite xPB in E1. rewrite xQB in E2. rewrite xRB in E3.
  exists A1, f, x1, x2, x3. repeat (split; [assumption|]).
  unfold EphemeralKeyGeneration_A, start_consts. cbn [fld_ops o_one o_madd]. change (2 + (2 + 2)) with A0. cbn [fld_ops o_one] in ER. rewrite ER. cbn [bind].
  destruct (kex_A_ok (2 + 2 + (2 + 2)) (2 + 2) A0 R [@mkPt O (gP gB) (1 : F); @mkPt O (gQ gB) (1 : F); @mkPt O (gR gB) (1 : F)] (xof (accA sk e2))
    [XF (gP gB); XF (gQ gB); XF (gR gB)] A1 f start4 HG HR (proj1 (proj2 Hc))) as (c1 & Qs1 & EK & _ & HF).
  { apply Forall2_cons; [apply rep1|]. apply Forall2_cons; [apply rep1|]. apply Forall2_cons; [apply rep1|]. constructor. }
  rewrite EK. cbn [bind]. cbn [map] in HF. rewrite E1, E2, E3 in HF.
  inversion HF as [|Q1 ? L1 ? F1 HF1]; subst. inversion HF1 as [|Q2 ? L2 ? F2 HF2]; subst. inversion HF2 as [|Q3 ? L3 ? F3 HF3]; subst. inversion HF3; subst.
  f_equal. now apply pack3_ok.
Qed.
Lemma keyB sk : readable sk (bob_bits P) -> exists Ap g x1 x2 x3, rowB sk Ap g /\ x1 <> 0 /\ x2 <> 0 /\ x3 <> 0 /\
  g (XF (gP gA)) = XF x1 /\ g (XF (gQ gA)) = XF x2 /\ g (XF (gR gA)) = XF x3 /\ EphemeralKeyGeneration_B O P gA gB sk = Ok (enc x1 ++ enc x2 ++ enc x3).
Proof.
  intros Hr. destruct (ladB sk Hr) as (R & ER & HR).
  pose proof (goodB_ord _ (accB_good sk (bob_bits P))) as HG. destruct (row3 F two e3 A0 _ HA0 (or_intror HG)) as (Ap & g & Hc).
  pose proof bA as (HPA & HQA & KPA & KQA & _ & _).
  destruct (nz_fin _ (imgA_nz sk Ap g PA Hc HPA KPA (goodA_nz _ goodA_P))) as (x1 & E1 & N1).
  destruct (nz_fin _ (imgA_nz sk Ap g QA Hc HQA KQA QA_nz)) as (x2 & E2 & N2).
  pose proof goodA_R as GR. destruct (nz_fin _ (imgA_nz sk Ap g _ Hc (proj1 GR) (proj1 (proj2 GR)) (goodA_nz _ GR))) as (x3 & E3 & N3).
  rewrite xPA in E1. rewrite xQA in E2. rewrite xRA in E3.
  exists Ap, g, x1, x2, x3. repeat (split; [assumption|]).
  unfold EphemeralKeyGeneration_B, start_consts. cbn [fld_ops o_one o_madd]. change (2 + (2 + 2)) with A0. cbn [fld_ops o_one] in ER. rewrite ER. cbn [bind].
  destruct (kex_B_ok (2 + 2) (2 + 2 + (2 + 2)) A0 R [@mkPt O (gP gA) (1 : F); @mkPt O (gQ gA) (1 : F); @mkPt O (gR gA) (1 : F)] (xof (accB sk (bob_bits P)))
    [XF (gP gA); XF (gQ gA); XF (gR gA)] Ap g start3 HG HR (proj1 (proj2 Hc))) as (c1 & Qs1 & EK & _ & HF).
  { apply Forall2_cons; [apply rep1|]. apply Forall2_cons; [apply rep1|]. apply Forall2_cons; [apply rep1|]. constructor. }
  rewrite EK. cbn [bind]. cbn [map] in HF. rewrite E1, E2, E3 in HF.
  inversion HF as [|Q1 ? L1 ? F1 HF1]; subst. inversion HF1 as [|Q2 ? L2 ? F2 HF2]; subst. inversion HF2 as [|Q3 ? L3 ? F3 HF3]; subst. inversion HF3; subst.
  f_equal. now apply pack3_ok.
Qed.
(** ** Agreement *)
Lemma jinv_scale (A c : F) : c <> 0 -> A * A <> 4 -> jinv (A * c) c = jinv A 1.
Proof.
  intros Nc HA. apply sub_nz in HA. pose proof (one_nz F). unfold jinv.
  assert (D1 : A * c * (A * c) - 4 * (c * c) <> 0) by (replace (A * c * (A * c) - 4 * (c * c)) with ((A * A - 4) * (c * c)) by ring; apply (mul_nz F); auto; apply (mul_nz F); auto).
  assert (D2 : A * A - 4 * (1 * 1) <> 0) by (replace (A * A - 4 * (1 * 1)) with (A * A - 4) by ring; auto).
  field. repeat split; auto.
Qed.
Lemma j_ok (A a c : F) : c <> 0 -> a = A * c -> A * A <> 4 -> j_inv O a c = jinv A 1.
Proof.
  intros Nc -> HA. rewrite <- (jinv_scale A c) by auto. apply (j_inv_ok F unit sqrt lt enc dec rnd); auto.
  intros E. apply sub_nz in HA. apply (mul_nz F (A * A - 4) (c * c)); auto; [apply (mul_nz F); auto|].
  replace ((A * A - 4) * (c * c)) with (A * c * (A * c) - 4 * (c * c)) by ring. rewrite E. ring.
Qed.
Hypothesis codec : forall x, dec (enc x) = x.
Hypothesis enclen : forall x, length (enc x) = (2 * fp_bytes P)%nat.
Lemma unpack_ok x1 x2 x3 : unpack3 O P (enc x1 ++ enc x2 ++ enc x3) = (x1, x2, x3).
Proof.
  unfold unpack3. cbn [fld_ops o_dec]. pose proof (enclen x1) as L1. pose proof (enclen x2) as L2. pose proof (enclen x3) as L3.
  set (k := (2 * fp_bytes P)%nat) in *.
  rewrite <- L1 at 1. rewrite firstn_app, Nat.sub_diag, firstn_all, app_nil_r.
  rewrite <- L1 at 2. rewrite skipn_app, Nat.sub_diag, skipn_all. cbn [app skipn].
  rewrite <- L2 at 1. rewrite firstn_app, Nat.sub_diag, firstn_all, app_nil_r.
  replace (2 * k)%nat with (k + k)%nat by lia. rewrite app_assoc.
  assert (L12 : length (enc x1 ++ enc x2) = (k + k)%nat) by (rewrite app_length; lia).
  rewrite <- L12. rewrite skipn_app, Nat.sub_diag, skipn_all. cbn [app skipn]. rewrite <- L3. rewrite firstn_all, !codec. reflexivity.
Qed.
Lemma agreeB skA skB A1 f x1 x2 x3 A' g' : readable skB (bob_bits P) -> colA skA A1 f -> x1 <> 0 -> x2 <> 0 -> x3 <> 0 ->
  f (XF (gP gB)) = XF x1 -> f (XF (gQ gB)) = XF x2 -> f (XF (gR gB)) = XF x3 -> C3 F e3 A1 (f (xof (accB skB (bob_bits P)))) A' g' ->
  forall differ square, EphemeralSecretAgreement_B O P differ square skB (enc x1 ++ enc x2 ++ enc x3) = Ok (Some (enc (jinv A' 1))).
Proof.
  intros Hr Hc N1 N2 N3 E1 E2 E3 H3 differ square. pose proof Hc as (HA1 & _ & Hh & _ & Hk).
  pose proof bB as (HPB & HQB & KPB & KQB & _ & _).
  assert (EA : get_A O x1 x2 x3 = A1).
  { apply (get_A_ok F unit sqrt lt enc dec rnd two A1 x1 x2 x3 (f (xof (padd PB QB)))); auto.
    rewrite <- E1, <- E2, <- E3, <- xPB, <- xQB, <- xRB. apply Hh. apply (XT_pt F two A0 1 HA0 one_nz'); auto. }
  unfold EphemeralSecretAgreement_B, EphemeralSecretAgreement_B_extended. rewrite unpack_ok, EA. cbn [andb].
  destruct (LADDER3PT_ok F unit sqrt lt enc dec rnd two A1 w (key_digits w skB) (bob_bits P) (bits skB) (fun i => f (xof (pmul (2 ^ i) QB))) (fun i => f (xof (accB skB i))) (fun i => f (xof (difB skB i)))
    x1 x2 x3 HA1 (bits_ok skB _ Hr)) as (R & E & HR).
  - apply (lad3_hom F A0 A1 f _ _ (fun i => xof (pmul (2 ^ i) QB)) (fun i => xof (accB skB i)) (fun i => xof (difB skB i))); auto.
    + apply (lad3_pt F two A0 1 HA0 one_nz'); auto. intros i _. split; apply goodB_nz; [apply accB_good|apply difB_good].
    + intros i _. pose proof (accB_good skB i) as G1. pose proof (difB_good skB i) as G2.
      split; apply (imgB_nz skA A1 f _ Hc); try apply G1; try apply G2; [exact (good_inf F A0 1 QB 3 e3 _ G1)|exact (good_inf F A0 1 QB 3 e3 _ G2)].
  - rewrite <- E2, <- xQB. do 2 f_equal. apply (MultP.pmul_1 F A0 1).
  - rewrite <- E1, <- xPB. reflexivity.
  - rewrite <- E3, <- xRB. unfold dif. cbn [acc]. do 4 f_equal. apply (MultP.pmul_1 F A0 1).
  - rewrite E. cbn [bind].
    assert (Ho : ord3 e3 A1 (f (xof (accB skB (bob_bits P))))).
    { destruct (goodB_ord _ (accB_good skB (bob_bits P))) as (k & Ek & Ek3). pose proof e3_pos as Pe.
      assert (K3 : ker3 A0 k) by exact Ek3.
      destruct (Hk k K3) as (t1 & f' & Et & Kt & _ & _). exists t1. pose proof Hh as (I1 & _ & I3 & _ & _). split.
      - rewrite <- Et, <- Ek. symmetry. now apply (xhom_tpl F A0 A1 f).
      - rewrite <- Et, <- I3, Ek3. exact I1. }
    destruct (kex_B_ok (A1 - 2) (A1 + 2) A1 R [] (f (xof (accB skB (bob_bits P)))) [] A' g') as (c1 & Qs1 & EK & Hcr & _); auto.
    { split; [auto|]. exists 1. split; [apply (one_nz F)|]. cbn. split; ring. }
    cbn [fld_ops o_madd o_msub o_one] in *. rewrite EK. cbn [bind]. destruct c1 as [am ap]. destruct Hcr as (HA' & s & Ns & Em & Ep). cbn [fst snd] in Em, Ep.
    do 2 f_equal. cbn [fld_ops o_enc o_add o_sub]. f_equal. rewrite Em, Ep. pose proof (four_nz F two) as N4. apply j_ok; auto.
    + replace ((A' + 2) * s - (A' - 2) * s) with (4 * s) by ring. apply (mul_nz F); auto.
    + toF_eq; ring.
Qed.
Lemma agreeA skA skB Ap g x1 x2 x3 A' f' : readable skA e2 -> rowB skB Ap g -> x1 <> 0 -> x2 <> 0 -> x3 <> 0 ->
  g (XF (gP gA)) = XF x1 -> g (XF (gQ gA)) = XF x2 -> g (XF (gR gA)) = XF x3 -> C2 F e2 Ap (g (xof (accA skA e2))) A' f' ->
  EphemeralSecretAgreement_A O P skA (enc x1 ++ enc x2 ++ enc x3) = Ok (enc (jinv A' 1)).
Proof.
  intros Hr Hc N1 N2 N3 E1 E2 E3 H3. pose proof Hc as (HA1 & _ & Hh & _ & Hk).
  pose proof bA as (HPA & HQA & KPA & KQA & _ & _).
  assert (EA : get_A O x1 x2 x3 = Ap).
  { apply (get_A_ok F unit sqrt lt enc dec rnd two Ap x1 x2 x3 (g (xof (padd PA QA)))); auto.
    rewrite <- E1, <- E2, <- E3, <- xPA, <- xQA, <- xRA. apply Hh. apply (XT_pt F two A0 1 HA0 one_nz'); auto. }
  unfold EphemeralSecretAgreement_A. rewrite unpack_ok, EA.
  destruct (LADDER3PT_ok F unit sqrt lt enc dec rnd two Ap w (key_digits w skA) e2 (bits skA) (fun i => g (xof (pmul (2 ^ i) QA))) (fun i => g (xof (accA skA i))) (fun i => g (xof (difA skA i)))
    x1 x2 x3 HA1 (bits_ok skA _ Hr)) as (R & E & HR).
  - apply (lad3_hom F A0 Ap g _ _ (fun i => xof (pmul (2 ^ i) QA)) (fun i => xof (accA skA i)) (fun i => xof (difA skA i))); auto.
    + apply (lad3_pt F two A0 1 HA0 one_nz'); auto. intros i _. split; apply goodA_nz; [apply accA_good|apply difA_good].
    + intros i _. pose proof (accA_good skA i) as G1. pose proof (difA_good skA i) as G2.
      split; apply (imgA_nz skB Ap g _ Hc); try apply G1; try apply G2; apply goodA_nz; auto.
  - rewrite <- E2, <- xQA. do 2 f_equal. apply (MultP.pmul_1 F A0 1).
  - rewrite <- E1, <- xPA. reflexivity.
  - rewrite <- E3, <- xRA. unfold dif. cbn [acc]. do 4 f_equal. apply (MultP.pmul_1 F A0 1).
  - rewrite E. cbn [bind].
    assert (Ho : G2 F e2 Ap (g (xof (accA skA e2)))).
    { destruct (goodA_G2 _ (accA_good skA e2)) as (Pe & m & Hm & Em). split; [exact Pe|].
      destruct (Hk m Hm) as (m' & Et & Kt). exists m'. split; [exact Kt|].
      rewrite <- Et, <- Em. symmetry. now apply (xhom_dbl F A0 Ap g). }
    destruct (kex_A_ok (Ap + 2) (2 + 2) Ap R [] (g (xof (accA skA e2))) [] A' f') as (c1 & Qs1 & EK & Hcr & _); auto.
    { split; [auto|]. cbn. split; [replace (2 + 2 : F) with (4 : F) by ring; apply (four_nz F two)|ring]. }
    cbn [fld_ops o_madd o_msub o_one] in *. rewrite EK. cbn [bind]. destruct c1 as [a c]. destruct Hcr as (HA' & Nc & Ec). cbn [fst snd] in Nc, Ec.
    f_equal. cbn [fld_ops o_enc o_add o_sub]. f_equal. apply j_ok; auto.
    replace (a + a - c + (a + a - c)) with (4 * a - 2 * c) by ring. rewrite Ec. toF_eq; ring.
Qed.
Theorem sidh_agree skA skB differ square : readable skA e2 -> readable skB (bob_bits P) -> exists x1 x2 x3 y1 y2 y3 z,
  let pkA := enc x1 ++ enc x2 ++ enc x3 in let pkB := enc y1 ++ enc y2 ++ enc y3 in
  EphemeralKeyGeneration_A O P gA gB skA = Ok pkA /\ EphemeralKeyGeneration_B O P gA gB skB = Ok pkB /\
  EphemeralSecretAgreement_A O P skA pkB = Ok (enc z) /\ EphemeralSecretAgreement_B O P differ square skB pkA = Ok (Some (enc z)).
Proof.
  intros HrA HrB.
  destruct (keyA skA HrA) as (A1 & f & x1 & x2 & x3 & Hc & N1 & N2 & N3 & E1 & E2 & E3 & EkA).
  destruct (keyB skB HrB) as (Ap & g & y1 & y2 & y3 & Hr & M1 & M2 & M3 & D1 & D2 & D3 & EkB).
  destruct (grid F two e2 e3 A0 (xof (accB skB (bob_bits P))) (xof (accA skA e2)) A1 f HA0 (goodA_G2 _ (accA_good skA e2)) (proj1 (proj2 Hc)) (or_intror (goodB_ord _ (accB_good skB (bob_bits P)))))
    as (Ap0 & g0 & A' & f' & g' & X1 & X2 & X3 & X4).
  pose proof (proj1 (proj2 Hr)) as X0.
  assert (Ap0 = Ap) by (specialize (X0 XInf); specialize (X1 XInf); congruence).
  assert (Eg : g0 (xof (accA skA e2)) = g (xof (accA skA e2))) by (specialize (X0 (xof (accA skA e2))); specialize (X1 (xof (accA skA e2))); congruence).
  subst Ap0. rewrite Eg in X3.
  exists x1, x2, x3, y1, y2, y3, (jinv A' 1). cbv zeta. split; [exact EkA|]. split; [exact EkB|]. split.
  - exact (agreeA skA skB Ap g y1 y2 y3 A' f' HrA Hr M1 M2 M3 D1 D2 D3 X3).
  - exact (agreeB skA skB A1 f x1 x2 x3 A' g' HrB Hc N1 N2 N3 E1 E2 E3 X2 differ square).
Qed.
End SP.
