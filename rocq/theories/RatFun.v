(** The field of rational functions over a field, with Leibniz equality (proofs only; no code of /repo is modelled here). *)
From Coq Require Import Field Eqdep_dec.
From Verif Require Import Base Fld CurveSpec Poly.
Set Bullet Behavior "Strict Subproofs".

(** Homomorphisms of fields. *)
Definition fhom {F L : fld} (f : F -> L) : Prop :=
  f k1 = k1 /\ (forall x y, f (kadd x y) = kadd (f x) (f y)) /\ (forall x y, f (kmul x y) = kmul (f x) (f y)).

Section Rat.
Variable F : fld.
Definition prth2 := pring F.
Add Ring PR32 : prth2.
Local Open Scope poly_scope.
Implicit Types (n d : poly F).
Definition red (n d : poly F) : poly F * poly F := match pdec F d 0 with left _ => (0, 1) | right N => proj1_sig (reduce F n d N) end.
Lemma lowest_01 : lowest F 0 1.
Proof. split; [exists 0, 1; ring|]. unfold lc. rewrite sz_I. cbn [Nat.sub]. unfold pI. now rewrite cf_C. Qed.
Lemma red_low n d : lowest F (fst (red n d)) (snd (red n d)).
Proof. unfold red. destruct (pdec F d 0) as [|N]; [apply lowest_01|]. apply (proj2_sig (reduce F n d N)). Qed.
Lemma red_eq n d : d <> 0 -> n * snd (red n d) = fst (red n d) * d.
Proof. intros N0. unfold red. destruct (pdec F d 0) as [|N]; [contradiction|]. apply (proj2_sig (reduce F n d N)). Qed.
Lemma red_nz n d : snd (red n d) <> 0. Proof. apply lc_1_nz, red_low. Qed.
Lemma red_is n d n' d' : d <> 0 -> lowest F n' d' -> n * d' = n' * d -> red n d = (n', d').
Proof.
  intros N L E. pose proof (red_low n d) as L'. pose proof (red_eq n d N) as E'. destruct (red n d) as [a b]. cbn [fst snd] in *.
  assert (X : a * d' = n' * b).
  { apply (pcancel F _ _ d N). transitivity (a * d * d'); [ring|]. rewrite <- E'. transitivity (n * d' * b); [ring|]. rewrite E. ring. }
  destruct (lowest_uniq F a b n' d' L' L X) as [-> ->]. reflexivity.
Qed.
Definition ppdec (x y : poly F * poly F) : {x = y} + {x <> y}.
Proof. destruct x as [a b], y as [c d]. destruct (pdec F a c) as [->|N]; [|right; congruence]. destruct (pdec F b d) as [->|N]; [left; reflexivity|right; congruence]. Defined.
Definition isr (x : poly F * poly F) : bool := if ppdec (red (fst x) (snd x)) x then true else false.
Lemma isr_red n d : isr (red n d) = true.
Proof.
  unfold isr. destruct (ppdec (red (fst (red n d)) (snd (red n d))) (red n d)) as [|N]; [reflexivity|]. exfalso. apply N.
  rewrite (surjective_pairing (red n d)) at 3. apply red_is; [apply red_nz|apply red_low|reflexivity].
Qed.
Definition rat : Type := { x : poly F * poly F | isr x = true }.
Definition mkr n d : rat := exist _ (red n d) (isr_red n d).
Definition nu (z : rat) : poly F := fst (proj1_sig z).
Definition de (z : rat) : poly F := snd (proj1_sig z).
Implicit Types z w : rat.
Lemma rat_ext z w : nu z = nu w -> de z = de w -> z = w.
Proof.
  destruct z as [[a b] H], w as [[c d] H']. cbn. intros -> ->. f_equal. apply UIP_dec. decide equality.
Qed.
Lemma rat_low z : lowest F (nu z) (de z).
Proof.
  destruct z as [[a b] H]. cbn. unfold isr in H. cbn [fst snd] in H. destruct (ppdec (red a b) (a, b)) as [E|]; [|discriminate].
  pose proof (red_low a b) as L. rewrite E in L. exact L.
Qed.
Lemma de_nz z : de z <> 0. Proof. apply lc_1_nz, rat_low. Qed.
Lemma mk_cross n d : d <> 0 -> n * de (mkr n d) = nu (mkr n d) * d. Proof. apply red_eq. Qed.
Lemma mk_eq n d n' d' : d <> 0 -> d' <> 0 -> n * d' = n' * d -> mkr n d = mkr n' d'.
Proof.
  intros N N' E. pose proof (red_low n d) as L. pose proof (red_eq n d N) as C.
  assert (R : red n' d' = red n d).
  { rewrite (surjective_pairing (red n d)). apply red_is; auto. apply (pcancel F _ _ d N).
    transitivity (n' * d * snd (red n d)); [ring|]. rewrite <- E. transitivity (n * snd (red n d) * d'); [ring|]. rewrite C. ring. }
  apply rat_ext; unfold nu, de; cbn [mkr proj1_sig]; now rewrite R.
Qed.
Lemma mk_inv n d n' d' : d <> 0 -> d' <> 0 -> mkr n d = mkr n' d' -> n * d' = n' * d.
Proof.
  intros N N' E. pose proof (mk_cross n d N) as C. pose proof (mk_cross n' d' N') as C'. rewrite <- E in C'. pose proof (de_nz (mkr n d)) as ND.
  set (a := nu (mkr n d)) in *. set (b := de (mkr n d)) in *. apply (pcancel F _ _ b ND).
  transitivity (n * b * d'); [ring|]. rewrite C. transitivity (a * d' * d); [ring|]. rewrite <- C'. ring.
Qed.
Lemma mk_low n d : lowest F n d -> nu (mkr n d) = n /\ de (mkr n d) = d.
Proof.
  intros L. unfold nu, de. cbn [mkr proj1_sig]. rewrite (red_is n d n d); auto. apply lc_1_nz, L.
Qed.
Lemma mk_nude z : mkr (nu z) (de z) = z.
Proof. destruct (mk_low (nu z) (de z) (rat_low z)). now apply rat_ext. Qed.
Definition r0 : rat := mkr 0 1.
Definition r1 : rat := mkr 1 1.
Definition ra z w : rat := mkr (nu z * de w + nu w * de z) (de z * de w).
Definition rm z w : rat := mkr (nu z * nu w) (de z * de w).
Definition ro z : rat := mkr (- nu z) (de z).
Definition rs z w : rat := ra z (ro w).
Definition ri z : rat := mkr (de z) (nu z).
Definition rd z w : rat := rm z (ri w).
Lemma ra_mk n d n' d' : d <> 0 -> d' <> 0 -> ra (mkr n d) (mkr n' d') = mkr (n * d' + n' * d) (d * d').
Proof.
  intros N N'. unfold ra. apply mk_eq; [apply m_nz; apply de_nz|now apply m_nz|].
  pose proof (mk_cross n d N) as C. pose proof (mk_cross n' d' N') as C'.
  set (a := nu (mkr n d)) in *. set (b := de (mkr n d)) in *. set (a' := nu (mkr n' d')) in *. set (b' := de (mkr n' d')) in *.
  transitivity ((a * d) * (b' * d') + (a' * d') * (b * d)); [ring|]. rewrite <- C, <- C'. ring.
Qed.
Lemma rm_mk n d n' d' : d <> 0 -> d' <> 0 -> rm (mkr n d) (mkr n' d') = mkr (n * n') (d * d').
Proof.
  intros N N'. unfold rm. apply mk_eq; [apply m_nz; apply de_nz|now apply m_nz|].
  pose proof (mk_cross n d N) as C. pose proof (mk_cross n' d' N') as C'.
  set (a := nu (mkr n d)) in *. set (b := de (mkr n d)) in *. set (a' := nu (mkr n' d')) in *. set (b' := de (mkr n' d')) in *.
  transitivity ((a * d) * (a' * d')); [ring|]. rewrite <- C, <- C'. ring.
Qed.
Lemma ro_mk n d : d <> 0 -> ro (mkr n d) = mkr (- n) d.
Proof.
  intros N. unfold ro. apply mk_eq; [apply de_nz|auto|]. pose proof (mk_cross n d N) as C.
  transitivity (- (nu (mkr n d) * d)); [ring|]. rewrite <- C. ring.
Qed.
Lemma ri_mk n d : n <> 0 -> d <> 0 -> ri (mkr n d) = mkr d n.
Proof.
  intros Nn N. unfold ri. pose proof (mk_cross n d N) as C. assert (Na : nu (mkr n d) <> 0).
  { intros Z. rewrite Z in C. apply (m_nz F n (de (mkr n d)) Nn (de_nz _)). rewrite C. ring. }
  apply mk_eq; auto. transitivity (n * de (mkr n d)); [ring|]. rewrite C. ring.
Qed.
Lemma nu_z z : nu z = 0 -> z = r0.
Proof. intros E. rewrite <- (mk_nude z), E. apply mk_eq; [apply de_nz|apply I_nz|ring]. Qed.
Lemma rat_field : field_theory r0 r1 ra rm rs ro rd ri (@eq rat).
Proof.
  pose proof (I_nz F) as N1.
  assert (AC : forall x y, ra x y = ra y x) by (intros x y; unfold ra; apply mk_eq; try (apply m_nz; apply de_nz); ring).
  assert (MC : forall x y, rm x y = rm y x) by (intros x y; unfold rm; apply mk_eq; try (apply m_nz; apply de_nz); ring).
  split; [split| | |].
  - intros x. rewrite <- (mk_nude x). unfold r0. rewrite ra_mk by (auto; apply de_nz). apply mk_eq; try apply m_nz; auto; try apply de_nz. ring.
  - exact AC.
  - intros x y z. rewrite <- (mk_nude x), <- (mk_nude y), <- (mk_nude z). rewrite !ra_mk by (repeat apply m_nz; apply de_nz).
    apply mk_eq; try (repeat apply m_nz; apply de_nz). ring.
  - intros x. rewrite <- (mk_nude x). unfold r1. rewrite rm_mk by (auto; apply de_nz). apply mk_eq; try apply m_nz; auto; try apply de_nz. ring.
  - exact MC.
  - intros x y z. rewrite <- (mk_nude x), <- (mk_nude y), <- (mk_nude z). rewrite !rm_mk by (repeat apply m_nz; apply de_nz).
    apply mk_eq; try (repeat apply m_nz; apply de_nz). ring.
  - intros x y z. rewrite <- (mk_nude x), <- (mk_nude y), <- (mk_nude z). rewrite ra_mk, !rm_mk, ra_mk by (repeat apply m_nz; apply de_nz).
    apply mk_eq; try (repeat apply m_nz; apply de_nz). ring.
  - reflexivity.
  - intros x. rewrite <- (mk_nude x), ro_mk, ra_mk by apply de_nz. apply mk_eq; try apply m_nz; auto; try apply de_nz. ring.
  - intros E. apply N1. pose proof (mk_inv 1 1 0 1 N1 N1 E) as X. transitivity (1 * 1 : poly F); [ring|]. rewrite X. ring.
  - reflexivity.
  - intros x N. assert (Nn : nu x <> 0) by (intros E; apply N, nu_z, E). rewrite <- (mk_nude x), ri_mk, rm_mk by (auto; apply de_nz).
    apply mk_eq; try apply m_nz; auto; try apply de_nz. ring.
Qed.
Lemma ri_0 : ri r0 = r0.
Proof.
  destruct (mk_low 0 1 lowest_01) as [E1 E2]. unfold ri, r0 at 1 2. rewrite E1, E2. unfold mkr, r0. apply rat_ext; unfold nu, de; cbn [proj1_sig mkr].
  - unfold red at 1. destruct (pdec F 0 0) as [|N]; [|contradiction]. symmetry. exact E1.
  - unfold red at 1. destruct (pdec F 0 0) as [|N]; [|contradiction]. symmetry. exact E2.
Qed.
Definition rdec z w : {z = w} + {z <> w}.
Proof.
  destruct (pdec F (nu z) (nu w)) as [E|N]; [|right; congruence]. destruct (pdec F (de z) (de w)) as [E'|N]; [left; now apply rat_ext|right; congruence].
Defined.
Definition RF : fld := mkFld rat r0 r1 ra rm rs ro rd ri rat_field ri_0 rdec.
(** Polynomials and constants in it. *)
Definition pr (P : poly F) : RF := mkr P 1.
Lemma pr_add P Q : pr (P + Q) = kadd (pr P) (pr Q).
Proof. change (mkr (P + Q) 1 = ra (mkr P 1) (mkr Q 1)). pose proof (I_nz F). rewrite ra_mk by auto. apply mk_eq; auto; [now apply m_nz|ring]. Qed.
Lemma pr_mul P Q : pr (P * Q) = kmul (pr P) (pr Q).
Proof. change (mkr (P * Q) 1 = rm (mkr P 1) (mkr Q 1)). pose proof (I_nz F). rewrite rm_mk by auto. apply mk_eq; auto; [now apply m_nz|ring]. Qed.
Lemma pr_inj P Q : pr P = pr Q -> P = Q.
Proof. intros E. pose proof (I_nz F) as N. pose proof (mk_inv P 1 Q 1 N N E) as X. transitivity (P * 1); [ring|]. rewrite X. ring. Qed.
Lemma pr_1 : pr 1 = k1. Proof. reflexivity. Qed.
Lemma pr_0 : pr 0 = k0. Proof. reflexivity. Qed.
Lemma pr_nz P : P <> 0 -> pr P <> k0. Proof. intros N E. apply N, pr_inj. rewrite E. reflexivity. Qed.
Lemma pr_opp P : pr (- P) = kopp (pr P).
Proof. change (mkr (- P) 1 = ro (mkr P 1)). symmetry. apply ro_mk, I_nz. Qed.
Lemma pr_sub P Q : pr (P - Q) = ksub (pr P) (pr Q).
Proof. change (P - Q) with (P + - Q). rewrite pr_add, pr_opp. reflexivity. Qed.
Lemma nude (z : RF) : pr (nu z) = kmul z (pr (de z)).
Proof.
  change (mkr (nu z) 1 = rm z (mkr (de z) 1)). pose proof (I_nz F). pose proof (de_nz z). rewrite <- (mk_nude z) at 2. rewrite rm_mk by auto.
  apply mk_eq; auto; [now apply m_nz|ring].
Qed.
Definition cst (c : F) : RF := pr (pC c).
Lemma cst_hom : fhom cst.
Proof.
  split; [reflexivity|]. split; intros x y; unfold cst; [rewrite C_add; apply pr_add|rewrite C_mul; apply pr_mul].
Qed.
End Rat.
Arguments nu {F}. Arguments de {F}.
