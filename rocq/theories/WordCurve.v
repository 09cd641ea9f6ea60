(** Digit arrays as elements and points over GF(p^2), and the curve theorems of the field transferred to
    digit arrays. *)
From Coq Require Import Znumtheory.
From Verif Require Import Base BaseP Digits DigitsP Out Params Fp Wf FpP Fld FpRep FpMisc FpMiscP PrimeInst FpInst Ops Ec Models Sim ModelsSim
  WordOps FieldOps WordSim CurveSpec ModelSpec IsogSpec FldCurve SqrtP FldModels GroupP MultP FldIsog LadderP IsoP Proto ProtoSim.
Set Bullet Behavior "Strict Subproofs".

Section WC.
Variable P : params.
Hypothesis HG : good P.
Local Notation HW := (FpInst.HW P HG). Local Notation Hp := (FpInst.Hp P HG).
Local Notation p := (par_p P).
Local Notation val := (valB (2 ^ radix P)).

(** ** Meaning of digit arrays *)
Definition GF : fld := FP2 P HW Hp.
Definition el (a : f2elm) : GF := tq P HG a.
Definition rng (a : f2elm) : Prop := ok P (fst a) /\ ok P (snd a) /\ val (fst a) <= 2 * p /\ val (snd a) <= 2 * p.
Definition srng (a : f2elm) : Prop := ok P (fst a) /\ ok P (snd a) /\ val (fst a) < 2 * p /\ val (snd a) < 2 * p.
Notation OW := (word_ops P). Notation OF := (field_ops P HW Hp).
Definition pel (Q : pt OW) : pt OF := @mkPt OF (el (pX Q)) (el (pZ Q)).
Definition prng (Q : pt OW) : Prop := rng (pX Q) /\ rng (pZ Q).
Definition psrng (Q : pt OW) : Prop := srng (pX Q) /\ srng (pZ Q).
Definition cel (E : curve OW) : curve OF := @mkCurve OF (el (cA E)) (el (cC E)).
Definition crng (E : curve OW) : Prop := rng (cA E) /\ rng (cC E).
Definition iel (i : miso OW) : miso OF := @mkIso OF (el (iB i)) (el (ir i)) (el (iu2 i)).
Definition irng (i : miso OW) : Prop := rng (iB i) /\ rng (ir i) /\ rng (iu2 i).
Definition coel (c : coeff3 OW) : coeff3 OF := @mkCo OF (el (co0 c)) (el (co1 c)) (el (co2 c)).
(** (X : Z) stands for M up to sign. *)
Definition repr (Q : pt OW) (M : point GF) : Prop := prng Q /\ xz (el (pX Q)) (el (pZ Q)) M.

Definition S0 : sim OW OF := word_sim P HW Hp.

Lemma srng_rng a : srng a -> rng a.
Proof. intros (H1 & H2 & H3 & H4). repeat split; auto; try (apply H1); try (apply H2); lia. Qed.
Lemma rel_el k a x : rel S0 k a x -> ok P (fst a) /\ ok P (snd a) /\ val (fst a) <= k * p /\ val (snd a) <= k * p /\ el a = x.
Proof.
  intros [(H1 & H2 & H3) (H4 & H5 & H6)]. repeat split; try (apply H1); try (apply H4); auto.
  change ((toF P (fst a), toF P (snd a)) = x). rewrite H3, H6. destruct x; reflexivity.
Qed.
Lemma srel_el a x : srel S0 a x -> srng a /\ el a = x.
Proof.
  intros [(H1 & H2 & H3) (H4 & H5 & H6)]. split; [repeat split; try (apply H1); try (apply H4); auto|].
  change ((toF P (fst a), toF P (snd a)) = x). rewrite H3, H6. destruct x; reflexivity.
Qed.
Lemma rel2_el a x : rel S0 2 a x -> rng a /\ el a = x.
Proof. intros H. apply rel_el in H as (H1 & H2 & H3 & H4 & E). split; [repeat split|]; auto; try (apply H1); apply H2. Qed.
Lemma el_rel a : rng a -> rel S0 2 a (el a).
Proof. intros (H1 & H2 & H3 & H4). apply mk_rep2; auto. Qed.
Lemma el_srel a : srng a -> srel S0 a (el a).
Proof. intros (H1 & H2 & H3 & H4). apply mk_srep2; auto. Qed.
Lemma pel_rel Q : prng Q -> prel _ _ S0 2 Q (pel Q).
Proof. intros [H1 H2]. split; apply el_rel; auto. Qed.
Lemma pel_srel Q : psrng Q -> psrel _ _ S0 Q (pel Q).
Proof. intros [H1 H2]. split; apply el_srel; auto. Qed.
Lemma psrel_el Q R : psrel _ _ S0 Q R -> psrng Q /\ pel Q = R.
Proof.
  intros [H1 H2]. apply srel_el in H1 as [H1 E1]. apply srel_el in H2 as [H2 E2]. split; [split; auto|].
  destruct R as [X Z]; unfold pel; cbn [pX pZ] in *. now subst.
Qed.
Lemma prel_el Q R : prel _ _ S0 2 Q R -> prng Q /\ pel Q = R.
Proof.
  intros [H1 H2]. apply rel2_el in H1 as [H1 E1]. apply rel2_el in H2 as [H2 E2]. split; [split; auto|].
  destruct R as [X Z]; unfold pel; cbn [pX pZ] in *. now subst.
Qed.
Lemma psrng_prng Q : psrng Q -> prng Q.
Proof. intros [H1 H2]; split; now apply srng_rng. Qed.
Lemma cel_rel E : crng E -> crel _ _ S0 E (cel E).
Proof. intros [H1 H2]. split; now apply el_rel. Qed.
Lemma irel_el i j : irel _ _ S0 i j -> irng i /\ iel i = j.
Proof.
  intros (H1 & H2 & H3). apply rel2_el in H1 as [H1 E1]. apply rel2_el in H2 as [H2 E2]. apply rel2_el in H3 as [H3 E3].
  split; [split; [|split]; auto|]. destruct j as [jb jr ju]; unfold iel; cbn [iB ir iu2] in *. now subst.
Qed.
Lemma iel_rel i : irng i -> irel _ _ S0 i (iel i).
Proof. intros (H1 & H2 & H3). split; [|split]; now apply el_rel. Qed.

Lemma two_nz : (kadd k1 k1 : GF) <> k0.
Proof.
  intros E. change (kadd (k1 : FP2 P HW Hp) k1 = k0) in E. rewrite two_q in E.
  apply (f_equal fst) in E. now apply (two_ne0 P HW) in E.
Qed.
Lemma sqrt_GF (x z : GF) : x = kmul z z -> kmul (qsqrt P HW Hp x : GF) (qsqrt P HW Hp x : GF) = x.
Proof. intros E. exact (qsqrt_ok P HW Hp x z E). Qed.
Lemma lt_GF_irr (x : GF) : qlt P HW Hp x x = false.
Proof. unfold qlt. rewrite !Z.ltb_irrefl. now rewrite andb_false_r. Qed.
Ltac ltb := unfold qlt; intros;
  repeat match goal with
  | H : _ || _ = true |- _ => apply orb_prop in H as [H|H]
  | H : _ && _ = true |- _ => apply andb_prop in H as [? ?]
  | H : (_ <? _) = true |- _ => apply Z.ltb_lt in H
  | H : (_ =? _) = true |- _ => apply Z.eqb_eq in H
  end.
Lemma lt_GF_trans (x y z : GF) : qlt P HW Hp x y = true -> qlt P HW Hp y z = true -> qlt P HW Hp x z = true.
Proof.
  ltb; apply orb_true_intro; rewrite andb_true_iff, !Z.ltb_lt, Z.eqb_eq; [left|left|left|right]; lia.
Qed.
Lemma lt_GF_total (x y : GF) : qlt P HW Hp x y = false -> qlt P HW Hp y x = false -> x = y.
Proof.
  unfold qlt. intros H1 H2. apply orb_false_iff in H1 as [H1 H1']. apply orb_false_iff in H2 as [H2 H2'].
  apply Z.ltb_ge in H1, H2. assert (E : fval (fst x) = fval (fst y)) by lia.
  rewrite E, Z.eqb_refl in H1', H2'. cbn [andb] in *. apply Z.ltb_ge in H1', H2'.
  destruct x as [x x'], y as [y y']; cbn [fst snd] in *. apply (f_equal2 pair); apply Fp_ext; lia.
Qed.

(** ** C23: each function on digit arrays computes the field function *)
Ltac rels := first [apply pel_rel|apply el_rel|apply el_srel|apply cel_rel|apply iel_rel]; assumption.
Lemma xDBL_word Q a c : prng Q -> rng a -> rng c ->
  psrng (xDBL OW Q a c) /\ pel (xDBL OW Q a c) = xDBL OF (pel Q) (el a) (el c).
Proof. intros. apply psrel_el. apply (xDBL_sim _ _ S0); rels. Qed.
Lemma xTPL_word Q a c : prng Q -> rng a -> rng c ->
  psrng (xTPL OW Q a c) /\ pel (xTPL OW Q a c) = xTPL OF (pel Q) (el a) (el c).
Proof. intros. apply psrel_el. apply (xTPL_sim _ _ S0); rels. Qed.
Lemma xDBLADD_word Q R X Z a : prng Q -> prng R -> rng X -> rng Z -> rng a ->
  let r := xDBLADD OW Q R X Z a in let r' := xDBLADD OF (pel Q) (pel R) (el X) (el Z) (el a) in
  psrng (fst r) /\ psrng (snd r) /\ pel (fst r) = fst r' /\ pel (snd r) = snd r'.
Proof.
  intros. destruct (xDBLADD_sim _ _ S0 Q R (pel Q) (pel R) X Z a (el X) (el Z) (el a)) as [H4 H5]; try rels.
  apply psrel_el in H4 as [H4 E4]. apply psrel_el in H5 as [H5 E5]. auto.
Qed.
Lemma get_2_word Q : prng Q ->
  let g := get_2_isog OW Q in let g' := get_2_isog OF (pel Q) in
  ok P (fst (fst g)) /\ ok P (snd (fst g)) /\ val (fst (fst g)) <= 4 * p /\ val (snd (fst g)) <= 4 * p /\
  srng (snd g) /\ el (fst g) = fst g' /\ el (snd g) = snd g'.
Proof.
  intros H. destruct (get_2_sim _ _ S0 Q (pel Q) (pel_rel Q H)) as [H1 H2].
  apply rel_el in H1 as (H3 & H4 & H5 & H6 & E). apply srel_el in H2 as [H2 E2]. cbv zeta. repeat (split; auto).
Qed.
Lemma eval_2_word Q K : prng Q -> prng K ->
  psrng (eval_2_isog OW Q K) /\ pel (eval_2_isog OW Q K) = eval_2_isog OF (pel Q) (pel K).
Proof. intros. apply psrel_el. apply (eval_2_sim _ _ S0); rels. Qed.
Lemma get_4_word Q : prng Q ->
  let g := fst (get_4_isog OW Q) in let g' := fst (get_4_isog OF (pel Q)) in
  rng (fst g) /\ rng (snd g) /\ el (fst g) = fst g' /\ el (snd g) = snd g'.
Proof.
  intros H. destruct (get_4_sim _ _ S0 Q (pel Q) (pel_rel Q H)) as [[H1 H2] _].
  apply rel2_el in H1 as [H1 E1]. apply rel2_el in H2 as [H2 E2]. exact (conj H1 (conj H2 (conj E1 E2))).
Qed.
Lemma eval_4_word K Q : prng K -> prng Q ->
  let R := eval_4_isog OW (snd (get_4_isog OW K)) Q in
  psrng R /\ pel R = eval_4_isog OF (snd (get_4_isog OF (pel K))) (pel Q).
Proof.
  intros H HQ. destruct (get_4_sim _ _ S0 K (pel K) (pel_rel K H)) as [_ H1].
  apply psrel_el. apply (eval_4_sim _ _ S0); auto. rels.
Qed.
Lemma get_3_word Q : prng Q ->
  let g := fst (get_3_isog OW Q) in let g' := fst (get_3_isog OF (pel Q)) in
  rng (fst g) /\ rng (snd g) /\ el (fst g) = fst g' /\ el (snd g) = snd g'.
Proof.
  intros H. destruct (get_3_sim _ _ S0 Q (pel Q) (pel_rel Q H)) as [[H1 H2] _].
  apply rel2_el in H1 as [H1 E1]. apply rel2_el in H2 as [H2 E2]. exact (conj H1 (conj H2 (conj E1 E2))).
Qed.
Lemma eval_3_word K Q : prng K -> prng Q ->
  let R := eval_3_isog OW (snd (get_3_isog OW K)) Q in
  psrng R /\ pel R = eval_3_isog OF (snd (get_3_isog OF (pel K))) (pel Q).
Proof.
  intros H HQ. destruct (get_3_sim _ _ S0 K (pel K) (pel_rel K H)) as [_ H1].
  apply psrel_el. apply (eval_3_sim _ _ S0); auto. rels.
Qed.
Lemma j_inv_word A C : rng A -> rng C -> srng (j_inv OW A C) /\ el (j_inv OW A C) = j_inv OF (el A) (el C).
Proof.
  intros. assert (H1 : srel S0 (j_inv OW A C) (j_inv OF (el A) (el C))) by (apply j_inv_sim; rels).
  apply srel_el in H1 as [H1 E]. auto.
Qed.
Lemma get_A_word xP xQ xR : rng xP -> rng xQ -> rng xR ->
  srng (get_A OW xP xQ xR) /\ el (get_A OW xP xQ xR) = get_A OF (el xP) (el xQ) (el xR).
Proof.
  intros. assert (H2 : srel S0 (get_A OW xP xQ xR) (get_A OF (el xP) (el xQ) (el xR))) by (apply get_A_sim; rels).
  apply srel_el in H2 as [H2 E]. auto.
Qed.
Lemma inv_3_word a b c : rng a -> rng b -> rng c ->
  let r := inv_3_way OW a b c in let r' := inv_3_way OF (el a) (el b) (el c) in
  srng (fst (fst r)) /\ srng (snd (fst r)) /\ srng (snd r) /\
  el (fst (fst r)) = fst (fst r') /\ el (snd (fst r)) = snd (fst r') /\ el (snd r) = snd r'.
Proof.
  intros. destruct (inv_3_sim _ _ S0 a b c (el a) (el b) (el c)) as (H2 & H3 & H4); try rels.
  apply srel_el in H2 as [H2 E2]. apply srel_el in H3 as [H3 E3]. apply srel_el in H4 as [H4 E4].
  cbv zeta. repeat (split; auto).
Qed.
Lemma fp2sqrt_word_el x k : srng x ->
  rng (fst (fp2sqrt OW x k)) /\ el (fst (fp2sqrt OW x k)) = fst (fp2sqrt OF (el x) k) /\
  snd (fp2sqrt OW x k) = snd (fp2sqrt OF (el x) k).
Proof.
  intros. destruct (fp2sqrt_sim _ _ S0 k x (el x)) as [H1 H2]; try rels. apply rel2_el in H1 as [H1 E]. auto.
Qed.
Lemma lrel_el l m : lrel _ _ S0 l m -> Forall irng l /\ map iel l = m.
Proof.
  induction 1 as [|i j l m H _ [IH1 IH2]]; auto. apply irel_el in H as [H E]. split; [auto|].
  cbn [map]. now rewrite E, IH2.
Qed.
Lemma all_models_word E : crng E ->
  out_rel (fun l m => Forall irng l /\ map iel l = m) (all_models OW E) (all_models OF (cel E)).
Proof.
  intros H. pose proof (all_models_sim _ _ S0 E (cel E) (cel_rel E H)) as HH.
  destruct HH; constructor. now apply lrel_el.
Qed.
Lemma canonical_word E : crng E ->
  out_rel (fun i j => irng i /\ iel i = j) (canonical_model OW E) (canonical_model OF (cel E)).
Proof.
  intros H. pose proof (canonical_sim _ _ S0 E (cel E) (cel_rel E H)) as HH.
  destruct HH; constructor. now apply irel_el.
Qed.
Lemma eval_iso_word i Q : irng i -> prng Q ->
  prng (eval_iso OW i Q) /\ pel (eval_iso OW i Q) = eval_iso OF (iel i) (pel Q).
Proof. intros. apply prel_el. apply (eval_iso_sim _ _ S0); rels. Qed.
Lemma Ladder_word w Q m A N : prng Q -> rng A ->
  out_rel (fun R R' => prng R /\ pel R = R') (Ladder OW w Q m A N) (Ladder OF w (pel Q) m (el A) N).
Proof.
  intros. assert (HH : out_rel (prel _ _ S0 2) (Ladder OW w Q m A N) (Ladder OF w (pel Q) m (el A) N)) by (apply Ladder_sim; rels).
  destruct HH; constructor. now apply prel_el.
Qed.
Lemma enc_j_word E : crng E -> enc_j OW E = enc_j OF (cel E).
Proof. intros H. apply (enc_j_sim _ _ S0). now apply cel_rel. Qed.

Lemma isog2_word K : prng K ->
  let g := get_2_isog OW K in let g' := get_2_isog OF (pel K) in
  (ok P (fst (fst g)) /\ ok P (snd (fst g)) /\ val (fst (fst g)) <= 4 * p /\ val (snd (fst g)) <= 4 * p /\
   srng (snd g) /\ el (fst g) = fst g' /\ el (snd g) = snd g') /\
  forall Q, prng Q ->
  psrng (eval_2_isog OW Q K) /\ pel (eval_2_isog OW Q K) = eval_2_isog OF (pel Q) (pel K).
Proof. intros H. split; [exact (get_2_word K H)|]. intros Q HQ. exact (eval_2_word Q K HQ H). Qed.
Lemma isog4_word K : prng K ->
  let g := get_4_isog OW K in let g' := get_4_isog OF (pel K) in
  (rng (fst (fst g)) /\ rng (snd (fst g)) /\ el (fst (fst g)) = fst (fst g') /\ el (snd (fst g)) = snd (fst g')) /\
  forall Q, prng Q ->
  psrng (eval_4_isog OW (snd g) Q) /\ pel (eval_4_isog OW (snd g) Q) = eval_4_isog OF (snd g') (pel Q).
Proof. intros H. split; [exact (get_4_word K H)|]. intros Q HQ. exact (eval_4_word K Q H HQ). Qed.
Lemma isog3_word K : prng K ->
  let g := get_3_isog OW K in let g' := get_3_isog OF (pel K) in
  (rng (fst (fst g)) /\ rng (snd (fst g)) /\ el (fst (fst g)) = fst (fst g') /\ el (snd (fst g)) = snd (fst g')) /\
  forall Q, prng Q ->
  psrng (eval_3_isog OW (snd g) Q) /\ pel (eval_3_isog OW (snd g) Q) = eval_3_isog OF (snd g') (pel Q).
Proof. intros H. split; [exact (get_3_word K H)|]. intros Q HQ. exact (eval_3_word K Q H HQ). Qed.

(** ** C24 *)
Lemma sqrt_word x : srng x ->
  let r := fp2sqrt OW x false in
  rng (fst r) /\
  (snd r = true -> kmul (el (fst r)) (el (fst r)) = el x) /\
  (snd r = false -> forall z : GF, kmul z z <> el x).
Proof.
  intros H. destruct (fp2sqrt_word_el x false H) as (H1 & E1 & E2). cbv zeta. split; auto. rewrite E1, E2.
  pose proof (fp2sqrt_field P HW Hp (el x)) as HH. destruct (fp2sqrt OF (el x) false) as [y b]. exact HH.
Qed.
Lemma sqrt_known_word x : srng x ->
  let r := fp2sqrt OW x true in
  rng (fst r) /\ snd r = true /\ (forall z : GF, kmul z z = el x -> kmul (el (fst r)) (el (fst r)) = el x).
Proof.
  intros H. destruct (fp2sqrt_word_el x true H) as (H1 & E1 & E2). cbv zeta. split; auto. rewrite E1, E2. split; auto.
  intros z Hz. exact (sqrt_GF (el x) z (eq_sym Hz)).
Qed.

(** ** C25 *)
Section Curve.
Variables A B : GF.
Hypothesis HA : kmul A A <> (4%F : GF).
Hypothesis HB : B <> k0.
Let ufd := toF P (vunit P).
Lemma repr_xz Q M : repr Q M -> xzp GF (toF P (vunit P), f0) (qsqrt P HW Hp) (qlt P HW Hp) (qenc P HW Hp) (dec_val P HW Hp) (qrand P HW Hp) (pel Q) M.
Proof. intros [_ H]. exact H. Qed.
Lemma xz_repr Q R M : psrng Q -> pel Q = R ->
  xzp GF (toF P (vunit P), f0) (qsqrt P HW Hp) (qlt P HW Hp) (qenc P HW Hp) (dec_val P HW Hp) (qrand P HW Hp) R M -> repr Q M.
Proof. intros H <- HX. split; [now apply psrng_prng|exact HX]. Qed.

Lemma xDBL_group Q M a c : repr Q M -> on A B M -> rng a -> rng c -> el c <> k0 ->
  kmul (4%F : GF) (el a) = kmul (kadd A (2%F : GF)) (el c) ->
  repr (xDBL OW Q a c) (padd A B M M).
Proof.
  intros HQ HM Ha Hc N E. destruct (xDBL_word Q a c) as [H1 H2]; auto; [apply HQ|].
  eapply xz_repr; eauto. apply (xDBL_ok GF); auto using repr_xz, two_nz.
Qed.
Lemma xTPL_group Q M am ap s : repr Q M -> on A B M -> rng am -> rng ap -> s <> k0 ->
  el am = kmul (ksub A (2%F : GF)) s -> el ap = kmul (kadd A (2%F : GF)) s ->
  repr (xTPL OW Q am ap) (padd A B M (padd A B M M)).
Proof.
  intros HQ HM Ha Hc N E1 E2. destruct (xTPL_word Q am ap) as [H1 H2]; auto; [apply HQ|].
  eapply xz_repr; eauto. apply (xTPL_ok GF) with (s := s); auto using repr_xz, two_nz.
Qed.
Lemma xDBLADD_group Q R M N X Z a : repr Q M -> repr R N -> on A B M -> on A B N ->
  rng X -> rng Z -> rng a -> kmul (4%F : GF) (el a) = kadd A (2%F : GF) ->
  xz (el X) (el Z) (padd A B M (neg N)) -> el X <> k0 -> el Z <> k0 ->
  repr (fst (xDBLADD OW Q R X Z a)) (padd A B M M) /\ repr (snd (xDBLADD OW Q R X Z a)) (padd A B M N).
Proof.
  intros HQ HR HM HN HX HZ Ha E HD NX NZ.
  destruct (xDBLADD_word Q R X Z a) as (H1 & H2 & H3 & H4); auto; [apply HQ|apply HR|].
  split; eapply xz_repr; eauto.
  - apply (xDBLADD_dbl GF); auto using repr_xz, two_nz.
  - apply (xADD_ok GF); auto using repr_xz, two_nz.
Qed.
Lemma Ladder_group w Q M m a N : repr Q M -> on A B M -> rng a -> el a = A -> 0 < w -> digits (2 ^ w) m ->
  (N <= Z.to_nat w * length m)%nat -> el (pX Q) <> k0 -> el (pZ Q) <> k0 ->
  exists R, Ladder OW w Q m a N = Ok R /\ repr R (pmul A B (Z.to_nat (valB (2 ^ w) m mod 2 ^ Z.of_nat N)) M).
Proof.
  intros HQ HM Ha E Hw Hm HN NX NZ.
  pose proof (Ladder_word w Q m a N (proj1 HQ) Ha) as HH.
  destruct (Ladder_ok GF (toF P (vunit P), f0) (qsqrt P HW Hp) (qlt P HW Hp) (qenc P HW Hp) (dec_val P HW Hp) (qrand P HW Hp)
     two_nz A B HA HB w m (pel Q) M N Hw Hm HN HM (repr_xz _ _ HQ) NX NZ) as (R' & E1 & E2).
  rewrite E in HH. change (field_ops P HW Hp) with (fld_ops GF (toF P (vunit P), f0) (qsqrt P HW Hp) (qlt P HW Hp) (qenc P HW Hp) (dec_val P HW Hp) (qrand P HW Hp)) in HH.
  rewrite E1 in HH. inversion HH as [R R'' [H1 H2] E3 E4| | | |]. exists R. split; auto. split; auto. rewrite <- H2 in E2. exact E2.
Qed.

(** ** C27 *)
Lemma aff_scale (K : pt OW) k yk : repr K (Aff k yk) -> pel K = @mkPt OF (kmul k (el (pZ K))) (el (pZ K)) /\ el (pZ K) <> k0.
Proof.
  intros [_ [N E]]. split; [|exact N]. apply (f_equal2 (@mkPt OF)); [exact E|reflexivity].
Qed.
Lemma eval_2_group k K Q M : repr K (Aff k k0) -> on A B (Aff k k0) -> k <> k0 -> repr Q M ->
  repr (eval_2_isog OW Q K) (phi2 k M).
Proof.
  intros HK Hon Nk HQ. destruct (eval_2_word Q K (proj1 HQ) (proj1 HK)) as [H1 H2].
  eapply xz_repr; eauto.
  exact (phi2_xz GF (toF P (vunit P), f0) (qsqrt P HW Hp) (qlt P HW Hp) (qenc P HW Hp) (dec_val P HW Hp) (qrand P HW Hp)
     two_nz A B HA k Nk Hon (el (pX K)) (el (pZ K)) (el (pX Q)) (el (pZ Q)) M (proj2 HK) (proj2 HQ)).
Qed.
Lemma get_2_group k K : repr K (Aff k k0) ->
  let g := get_2_isog OW K in
  el (snd g) <> k0 /\ kmul (4%F : GF) (el (fst g)) = kmul (kadd (A2 k) (2%F : GF)) (el (snd g)).
Proof.
  intros HK. destruct (get_2_word K (proj1 HK)) as (_ & _ & _ & _ & _ & E1 & E2). cbv zeta in *. rewrite E1, E2.
  exact (get2_ok GF (toF P (vunit P), f0) (qsqrt P HW Hp) (qlt P HW Hp) (qenc P HW Hp) (dec_val P HW Hp) (qrand P HW Hp) k (el (pX K)) (el (pZ K)) (proj2 HK)).
Qed.
Lemma eval_4_group k yk m K Q M : repr K (Aff k yk) -> on A B (Aff k yk) ->
  padd A B (Aff k yk) (Aff k yk) = Aff m k0 -> m <> k0 -> repr Q M ->
  repr (eval_4_isog OW (snd (get_4_isog OW K)) Q) (phi4 k M).
Proof.
  intros HK Hon Hd Nm HQ. destruct (eval_4_word K Q (proj1 HK) (proj1 HQ)) as [H1 H2]. cbv zeta in *.
  destruct (aff_scale K k yk HK) as [EK NK]. rewrite EK in H2.
  eapply xz_repr; eauto.
  exact (phi4_xz GF (toF P (vunit P), f0) (qsqrt P HW Hp) (qlt P HW Hp) (qenc P HW Hp) (dec_val P HW Hp) (qrand P HW Hp)
     two_nz A B HA HB k yk m Nm Hon Hd (el (pZ K)) (el (pX Q)) (el (pZ Q)) M NK (proj2 HQ)).
Qed.
Lemma get_4_group k yk K : repr K (Aff k yk) ->
  let g := fst (get_4_isog OW K) in
  rng (fst g) /\ rng (snd g) /\ el (snd g) <> k0 /\ kmul (4%F : GF) (el (fst g)) = kmul (kadd (A4 k) (2%F : GF)) (el (snd g)).
Proof.
  intros HK. destruct (get_4_word K (proj1 HK)) as (H1 & H2 & E1 & E2). cbv zeta in *. split; [exact H1|]. split; [exact H2|]. rewrite E1, E2.
  destruct (aff_scale K k yk HK) as [EK NK]. rewrite EK.
  exact (get4_ok GF (toF P (vunit P), f0) (qsqrt P HW Hp) (qlt P HW Hp) (qenc P HW Hp) (dec_val P HW Hp) (qrand P HW Hp) two_nz k (el (pZ K)) NK).
Qed.
Lemma eval_3_group k yk K Q M : repr K (Aff k yk) -> on A B (Aff k yk) ->
  padd A B (Aff k yk) (padd A B (Aff k yk) (Aff k yk)) = Inf -> repr Q M ->
  repr (eval_3_isog OW (snd (get_3_isog OW K)) Q) (phi3 k M).
Proof.
  intros HK Hon Hd HQ. destruct (eval_3_word K Q (proj1 HK) (proj1 HQ)) as [H1 H2]. cbv zeta in *.
  destruct (aff_scale K k yk HK) as [EK NK]. rewrite EK in H2.
  eapply xz_repr; eauto.
  exact (phi3_xz GF (toF P (vunit P), f0) (qsqrt P HW Hp) (qlt P HW Hp) (qenc P HW Hp) (dec_val P HW Hp) (qrand P HW Hp)
     two_nz A B HA HB k yk Hon Hd (el (pZ K)) (el (pX Q)) (el (pZ Q)) M NK (proj2 HQ)).
Qed.
Lemma get_3_group k yk K : repr K (Aff k yk) -> on A B (Aff k yk) ->
  padd A B (Aff k yk) (padd A B (Aff k yk) (Aff k yk)) = Inf ->
  let g := fst (get_3_isog OW K) in
  rng (fst g) /\ rng (snd g) /\ exists s : GF, s <> k0 /\
  el (fst g) = kmul (ksub (A3 A k) (2%F : GF)) s /\ el (snd g) = kmul (kadd (A3 A k) (2%F : GF)) s.
Proof.
  intros HK Hon Hd. destruct (get_3_word K (proj1 HK)) as (H1 & H2 & E1 & E2). cbv zeta in *. split; [exact H1|]. split; [exact H2|]. rewrite E1, E2.
  destruct (aff_scale K k yk HK) as [EK NK]. rewrite EK.
  exists (s3 GF k (el (pZ K))). split; [|exact (get3_ok GF (toF P (vunit P), f0) (qsqrt P HW Hp) (qlt P HW Hp) (qenc P HW Hp) (dec_val P HW Hp) (qrand P HW Hp) two_nz A B HA HB k yk Hon Hd (el (pZ K)))].
  exact (s3_nz GF (toF P (vunit P), f0) (qsqrt P HW Hp) (qlt P HW Hp) (qenc P HW Hp) (dec_val P HW Hp) (qrand P HW Hp) two_nz A B HA HB k yk Hon Hd _ NK).
Qed.
Lemma code3_ok k yk K : repr K (Aff k yk) -> on A B (Aff k yk) -> padd A B (Aff k yk) (padd A B (Aff k yk) (Aff k yk)) = Inf ->
  let g := get_3_isog OW K in
  (rng (fst (fst g)) /\ rng (snd (fst g)) /\ exists s : GF, s <> k0 /\
   el (fst (fst g)) = kmul (ksub (A3 A k) (2%F : GF)) s /\ el (snd (fst g)) = kmul (kadd (A3 A k) (2%F : GF)) s) /\
  (forall Q M, repr Q M -> repr (eval_3_isog OW (snd g) Q) (phi3 k M)).
Proof. intros H1 H2 H3. split; [exact (get_3_group k yk K H1 H2 H3)|]. intros Q M HQ. exact (eval_3_group k yk K Q M H1 H2 H3 HQ). Qed.
Lemma code4_ok k yk m K : repr K (Aff k yk) -> on A B (Aff k yk) -> padd A B (Aff k yk) (Aff k yk) = Aff m k0 -> m <> k0 ->
  let g := get_4_isog OW K in
  (rng (fst (fst g)) /\ rng (snd (fst g)) /\ el (snd (fst g)) <> k0 /\
   kmul (4%F : GF) (el (fst (fst g))) = kmul (kadd (A4 k) (2%F : GF)) (el (snd (fst g)))) /\
  (forall Q M, repr Q M -> repr (eval_4_isog OW (snd g) Q) (phi4 k M)).
Proof. intros H1 H2 H3 H4. split; [exact (get_4_group k yk K H1)|]. intros Q M HQ. exact (eval_4_group k yk m K Q M H1 H2 H3 H4 HQ). Qed.
End Curve.
Lemma code2_ok A B : kmul A A <> (4%F : GF) -> forall k K, repr K (Aff k k0) ->
  (let g := get_2_isog OW K in
   el (snd g) <> k0 /\ kmul (4%F : GF) (el (fst g)) = kmul (kadd (A2 k) (2%F : GF)) (el (snd g))) /\
  (on A B (Aff k k0) -> k <> k0 -> forall Q M, repr Q M -> repr (eval_2_isog OW Q K) (phi2 k M)).
Proof. intros HA k K HK. split; [now apply get_2_group|]. intros. now apply (eval_2_group A B HA). Qed.

(** ** C29 *)
Lemma j_inv_group a c : rng a -> rng c -> el c <> k0 -> kmul (el a) (el a) <> kmul (4%F : GF) (kmul (el c) (el c)) ->
  srng (j_inv OW a c) /\ el (j_inv OW a c) = jinv (el a) (el c).
Proof.
  intros Ha Hc N1 N2. destruct (j_inv_word a c Ha Hc) as [H1 H2]. split; auto. rewrite H2.
  exact (j_inv_ok GF (toF P (vunit P), f0) (qsqrt P HW Hp) (qlt P HW Hp) (qenc P HW Hp) (dec_val P HW Hp) (qrand P HW Hp) (el a) (el c) N1 N2).
Qed.
Definition coef (E : curve OW) : GF := kdiv (el (cA E)) (el (cC E)).
Definition nons (E : curve OW) : Prop := crng E /\ el (cC E) <> k0 /\ kmul (coef E) (coef E) <> (4%F : GF).
Lemma dec_enc (x : GF) : dec_val P HW Hp (qenc P HW Hp x) = x.
Proof.
  destruct x as [x y]. unfold dec_val, qenc. cbn [fst snd].
  pose proof (ppos P HW) as Hpp.
  rewrite firstn_app, skipn_app, toB_length, Nat.sub_diag, firstn_O, app_nil_r.
  rewrite (skipn_all2 (toB 256 (fp_bytes P) (fval x))) by (rewrite toB_length; lia). cbn [app skipn].
  rewrite (firstn_all2 (toB 256 (fp_bytes P) (fval x))) by (rewrite toB_length; lia).
  rewrite (firstn_all2 (toB 256 (fp_bytes P) (fval y))) by (rewrite toB_length; lia).
  rewrite !(toB_canon P HG) by (now apply fval_bound). now rewrite !mkF_fval.
Qed.
Lemma enc_inj (x y : GF) : qenc P HW Hp x = qenc P HW Hp y -> x = y.
Proof. intros E. rewrite <- (dec_enc x), E. apply dec_enc. Qed.
Lemma enc_elem_ok (x : GF) : elem_ok P (qenc P HW Hp x).
Proof.
  split; unfold qenc; [apply digits_app; split; apply toB_digits; lia|]. rewrite app_length, !toB_length. lia.
Qed.
End WC.
