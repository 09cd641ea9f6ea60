(** Simulation between two operation records: [rel k a x] says that the stored value [a] stands for [x]
    and is at most k times the modulus, [srel a x] that it is strictly below twice the modulus.
    The curve code maps related inputs to related outputs; all bounds are checked by computation. *)
From Verif Require Import Base Out Params Ops Ec Models.

Inductive out_rel {A B} (R : A -> B -> Prop) : out A -> out B -> Prop :=
| or_ok a b : R a b -> out_rel R (Ok a) (Ok b)
| or_abort : out_rel R Abort Abort
| or_tape : out_rel R NoTape NoTape
| or_fuel : out_rel R NoFuel NoFuel
| or_ub : out_rel R UB UB.

Lemma out_bind {A B A' B'} (R : A -> B -> Prop) (R' : A' -> B' -> Prop) m n f g :
  out_rel R m n -> (forall a b, R a b -> out_rel R' (f a) (g b)) -> out_rel R' (bind m f) (bind n g).
Proof. intros Hm Hf. destruct Hm; cbn [bind]; try constructor. auto. Qed.

(** The products of get_3_isog (ec_isogeny.c:177-183), a (u^2 + 2 (v^2 + c)): the second factor is a sum of five stored values, and the
    x86-64 code wants it to be at most 8 times the modulus, so this is a condition of its own. *)
Definition mul3 (O : fops) (a u v c : T O) : T O :=
  let t := o_madd O (o_sqr O v) c in o_mul O a (o_madd O (o_sqr O u) (o_madd O t t)).
Record sim (O1 O2 : fops) := mkSim {
  rel : Z -> T O1 -> T O2 -> Prop;
  srel : T O1 -> T O2 -> Prop;
  bytes_ok : list Z -> Prop;
  s_rel : forall a x, srel a x -> rel 2 a x;
  s_le : forall j k a x, (j <=? k) = true -> rel j a x -> rel k a x;
  s_zero : srel (o_zero O1) (o_zero O2);
  s_one : srel (o_one O1) (o_one O2);
  s_unit : srel (o_unit O1) (o_unit O2);
  s_add : forall j k a b x y, rel j a x -> rel k b y -> (j + k <=? 255) = true ->
    rel (Z.max 2 (j + k - 2)) (o_add O1 a b) (o_add O2 x y);
  s_adds : forall a b x y, srel a x -> srel b y -> srel (o_add O1 a b) (o_add O2 x y);
  s_sub : forall j k a b x y, rel j a x -> rel k b y -> (j <=? 250) && (k <=? 2) = true ->
    rel (Z.max 2 j) (o_sub O1 a b) (o_sub O2 x y);
  s_subs : forall a b x y, srel a x -> rel 2 b y -> srel (o_sub O1 a b) (o_sub O2 x y);
  s_madd : forall j k a b x y, rel j a x -> rel k b y -> (j + k <=? 255) = true ->
    rel (j + k) (o_madd O1 a b) (o_madd O2 x y);
  s_msub : forall j k a b x y, rel j a x -> rel k b y -> (j <=? 250) && (k <=? 2) = true ->
    rel (j + 2) (o_msub O1 a b) (o_msub O2 x y);
  s_mul : forall j k a b x y, rel j a x -> rel k b y ->
    (0 <=? j) && (j <=? 100) && (0 <=? k) && (k <=? 8) && (2 * (j * k) <=? 255) = true ->
    srel (o_mul O1 a b) (o_mul O2 x y);
  s_mul3 : forall a u v c x y z t, rel 2 a x -> rel 4 u y -> rel 4 v z -> rel 2 c t ->
    srel (mul3 O1 a u v c) (mul3 O2 x y z t);
  s_sqr : forall j a x, rel j a x -> (0 <=? j) && (j <=? 4) = true -> srel (o_sqr O1 a) (o_sqr O2 x);
  s_neg : forall a x, rel 2 a x -> rel 2 (o_neg O1 a) (o_neg O2 x);
  s_inv : forall a x, rel 2 a x -> srel (o_inv O1 a) (o_inv O2 x);
  s_div2 : forall a x, rel 2 a x -> srel (o_div2 O1 a) (o_div2 O2 x);
  s_add1 : forall a x, srel a x -> srel (o_add1 O1 a) (o_add1 O2 x);
  s_sqrt : forall a x, srel a x -> rel 2 (o_sqrt O1 a) (o_sqrt O2 x);
  s_eq : forall a b x y, srel a x -> srel b y -> o_eq O1 a b = o_eq O2 x y;
  s_lt : forall a b x y, rel 2 a x -> rel 2 b y -> o_lt O1 a b = o_lt O2 x y;
  s_enc : forall a x, rel 2 a x -> o_enc O1 a = o_enc O2 x;
  s_dec : forall b, bytes_ok b -> srel (o_dec O1 b) (o_dec O2 b)
}.
Arguments rel {O1 O2}. Arguments srel {O1 O2}. Arguments bytes_ok {O1 O2}.
(** The sampling of random elements agrees as well.  This is a separate condition, used only where randomness is. *)
Definition rand_sim {O1 O2} (S : sim O1 O2) : Prop :=
  forall tp, out_rel (fun a b => srel S (fst a) (fst b) /\ snd a = snd b) (o_rand O1 tp) (o_rand O2 tp).

Section Sim.
Variables (O1 O2 : fops) (S : sim O1 O2).
Notation rel := (rel S). Notation srel := (srel S).

Definition prel (k : Z) (P : pt O1) (Q : pt O2) : Prop := rel k (pX P) (pX Q) /\ rel k (pZ P) (pZ Q).
Definition psrel (P : pt O1) (Q : pt O2) : Prop := srel (pX P) (pX Q) /\ srel (pZ P) (pZ Q).
Lemma ps_rel P Q : psrel P Q -> prel 2 P Q.
Proof. intros [H1 H2]; split; apply s_rel; auto. Qed.

Lemma s_rel_mul j k a b x y : rel j a x -> rel k b y ->
    (0 <=? j) && (j <=? 100) && (0 <=? k) && (k <=? 8) && (2 * (j * k) <=? 255) = true ->
    rel 2 (o_mul O1 a b) (o_mul O2 x y).
Proof. intros. apply s_rel. eapply s_mul; eauto. Qed.
Lemma s_rel_sqr j a x : rel j a x -> (0 <=? j) && (j <=? 4) = true -> rel 2 (o_sqr O1 a) (o_sqr O2 x).
Proof. intros. apply s_rel. eapply s_sqr; eauto. Qed.
Lemma s_rel_inv a x : rel 2 a x -> rel 2 (o_inv O1 a) (o_inv O2 x).
Proof. intros. apply s_rel, s_inv; auto. Qed.
Lemma s_rel_div2 a x : rel 2 a x -> rel 2 (o_div2 O1 a) (o_div2 O2 x).
Proof. intros. apply s_rel, s_div2; auto. Qed.
Lemma s_rel_zero : rel 2 (o_zero O1) (o_zero O2). Proof. apply s_rel, s_zero. Qed.
Lemma s_rel_one : rel 2 (o_one O1) (o_one O2). Proof. apply s_rel, s_one. Qed.
End Sim.

(** [bnd]: prove a [rel _ ?k] goal, inferring the bound; [bnds]: prove a [srel] goal. *)
Ltac bnd :=
  lazymatch goal with
  | |- rel ?S ?k ?a ?x =>
    first
    [ eassumption
    | match goal with H : srel S a x |- _ => exact (s_rel _ _ S _ _ H) end
    | lazymatch a with
      | o_mul _ _ _ => eapply s_rel_mul; [bnd|bnd|reflexivity]
      | o_sqr _ _ => eapply s_rel_sqr; [bnd|reflexivity]
      | o_madd _ _ _ => eapply s_madd; [bnd|bnd|reflexivity]
      | o_msub _ _ _ => eapply s_msub; [bnd|bnd|reflexivity]
      | o_add _ _ _ => first [ apply s_rel, s_adds; bnds | eapply s_add; [bnd|bnd|reflexivity] ]
      | o_sub _ _ _ => first [ apply s_rel, s_subs; [bnds|bnd2] | eapply s_sub; [bnd|bnd|reflexivity] ]
      | o_inv _ _ => apply s_rel_inv; bnd2
      | o_div2 _ _ => apply s_rel_div2; bnd2
      | o_neg _ _ => apply s_neg; bnd2
      | o_sqrt _ _ => apply s_sqrt; bnds
      | o_zero _ => apply s_rel_zero
      | o_one _ => apply s_rel_one
      | o_unit _ => apply s_rel, s_unit
      | o_add1 _ _ => apply s_rel, s_add1; bnds
      end ]
  end
with bnd2 := eapply s_le; [|bnd]; reflexivity
with bnds :=
  lazymatch goal with
  | |- srel ?S ?a ?x =>
    first
    [ eassumption
    | lazymatch a with
      | o_mul _ _ _ => eapply s_mul; [bnd|bnd|reflexivity]
      | o_sqr _ _ => eapply s_sqr; [bnd|reflexivity]
      | o_add _ _ _ => apply s_adds; bnds
      | o_sub _ _ _ => apply s_subs; [bnds|bnd2]
      | o_inv _ _ => apply s_inv; bnd2
      | o_div2 _ _ => apply s_div2; bnd2
      | o_zero _ => apply s_zero
      | o_one _ => apply s_one
      | o_unit _ => apply s_unit
      | o_add1 _ _ => apply s_add1; bnds
      end ]
  end.

Section EcSim.
Variables (O1 O2 : fops) (S : sim O1 O2).
Notation rel := (rel S). Notation srel := (srel S). Notation prel := (prel _ _ S). Notation psrel := (psrel _ _ S).
Ltac start f := intros; repeat match goal with H : prel _ _ _ |- _ => destruct H | H : psrel _ _ |- _ => destruct H end;
  unfold f; cbv zeta; cbn [pX pZ fst snd co0 co1 co2].
Ltac pts := split; cbn [pX pZ]; bnds.

Lemma xDBL_sim P Q a b c d : prel 2 P Q -> rel 2 a c -> rel 2 b d -> psrel (xDBL O1 P a b) (xDBL O2 Q c d).
Proof. start xDBL. pts. Qed.
Lemma xTPL_sim P Q a b c d : prel 2 P Q -> rel 2 a c -> rel 2 b d -> psrel (xTPL O1 P a b) (xTPL O2 Q c d).
Proof. start xTPL. pts. Qed.
Lemma xDBLe_sim e P Q a b c d : prel 2 P Q -> rel 2 a c -> rel 2 b d -> prel 2 (xDBLe O1 P a b e) (xDBLe O2 Q c d e).
Proof.
  intros H Ha Hb. unfold xDBLe. induction e as [|e IH]; cbn [Nat.iter nat_rect]; auto.
  change (prel 2 (xDBL O1 (Nat.iter e (fun Q => xDBL O1 Q a b) P) a b) (xDBL O2 (Nat.iter e (fun Q => xDBL O2 Q c d) Q) c d)).
  apply ps_rel, xDBL_sim; auto.
Qed.
Lemma xTPLe_sim e P Q a b c d : prel 2 P Q -> rel 2 a c -> rel 2 b d -> prel 2 (xTPLe O1 P a b e) (xTPLe O2 Q c d e).
Proof.
  intros H Ha Hb. unfold xTPLe. induction e as [|e IH]; auto.
  change (prel 2 (xTPL O1 (Nat.iter e (fun Q => xTPL O1 Q a b) P) a b) (xTPL O2 (Nat.iter e (fun Q => xTPL O2 Q c d) Q) c d)).
  apply ps_rel, xTPL_sim; auto.
Qed.
(** strict versions *)
Lemma xDBLe_sims e P Q a b c d : psrel P Q -> rel 2 a c -> rel 2 b d -> psrel (xDBLe O1 P a b e) (xDBLe O2 Q c d e).
Proof.
  intros H Ha Hb. destruct e as [|e]; auto.
  change (psrel (xDBL O1 (xDBLe O1 P a b e) a b) (xDBL O2 (xDBLe O2 Q c d e) c d)).
  apply xDBL_sim; auto. apply xDBLe_sim; auto. now apply ps_rel.
Qed.
Lemma xTPLe_sims e P Q a b c d : psrel P Q -> rel 2 a c -> rel 2 b d -> psrel (xTPLe O1 P a b e) (xTPLe O2 Q c d e).
Proof.
  intros H Ha Hb. destruct e as [|e]; auto.
  change (psrel (xTPL O1 (xTPLe O1 P a b e) a b) (xTPL O2 (xTPLe O2 Q c d e) c d)).
  apply xTPL_sim; auto. apply xTPLe_sim; auto. now apply ps_rel.
Qed.

(** A24plus of get_2_isog and A24plus, C24 of get_4_isog are used as curve constants; the bound 4 of
    get_2_isog (mp2_sub_p2) needs the larger constants below. *)
Lemma get_2_sim P Q : prel 2 P Q ->
  rel 4 (fst (get_2_isog O1 P)) (fst (get_2_isog O2 Q)) /\ srel (snd (get_2_isog O1 P)) (snd (get_2_isog O2 Q)).
Proof. start get_2_isog. split; [bnd2|bnds]. Qed.
Lemma xDBL_sim4 P Q a b c d : prel 2 P Q -> rel 4 a c -> rel 2 b d -> psrel (xDBL O1 P a b) (xDBL O2 Q c d).
Proof. start xDBL. pts. Qed.
Lemma xDBLe_sim4 e P Q a b c d : prel 2 P Q -> rel 4 a c -> rel 2 b d -> prel 2 (xDBLe O1 P a b e) (xDBLe O2 Q c d e).
Proof.
  intros H Ha Hb. unfold xDBLe. induction e as [|e IH]; auto.
  change (prel 2 (xDBL O1 (Nat.iter e (fun Q => xDBL O1 Q a b) P) a b) (xDBL O2 (Nat.iter e (fun Q => xDBL O2 Q c d) Q) c d)).
  apply ps_rel, xDBL_sim4; auto.
Qed.
Lemma eval_2_sim P Q K L : prel 2 P Q -> prel 2 K L -> psrel (eval_2_isog O1 P K) (eval_2_isog O2 Q L).
Proof. start eval_2_isog. pts. Qed.

Definition co_rel (c : coeff3 O1) (d : coeff3 O2) : Prop :=
  rel 8 (co0 c) (co0 d) /\ rel 4 (co1 c) (co1 d) /\ rel 4 (co2 c) (co2 d).
Definition cs_rel (k : Z) (c : T O1 * T O1) (d : T O2 * T O2) : Prop := rel k (fst c) (fst d) /\ rel 2 (snd c) (snd d).
Lemma get_4_sim P Q : prel 2 P Q ->
  cs_rel 2 (fst (get_4_isog O1 P)) (fst (get_4_isog O2 Q)) /\ co_rel (snd (get_4_isog O1 P)) (snd (get_4_isog O2 Q)).
Proof.
  start get_4_isog. split; [split; cbn [fst snd]; bnd2|split; [|split]]; cbn [co0 co1 co2 fst snd]; (eapply s_le; [|bnd]; reflexivity).
Qed.
Lemma eval_4_sim c d P Q : co_rel c d -> prel 2 P Q -> psrel (eval_4_isog O1 c P) (eval_4_isog O2 d Q).
Proof. intros (H1 & H2 & H3). start eval_4_isog. pts. Qed.
Lemma get_3_sim P Q : prel 2 P Q ->
  cs_rel 2 (fst (get_3_isog O1 P)) (fst (get_3_isog O2 Q)) /\ co_rel (snd (get_3_isog O1 P)) (snd (get_3_isog O2 Q)).
Proof.
  start get_3_isog. split; [split; cbn [fst snd]|split; [|split]]; cbn [co0 co1 co2]; try (eapply s_le; [|bnd]; reflexivity).
  - apply s_rel, (s_mul3 _ _ S); bnd2.
  - apply s_rel, (s_mul3 _ _ S); bnd2.
Qed.
Lemma eval_3_sim c d P Q : co_rel c d -> prel 2 P Q -> psrel (eval_3_isog O1 c P) (eval_3_isog O2 d Q).
Proof. intros (H1 & H2 & H3). start eval_3_isog. pts. Qed.
Lemma inv_3_sim a b c x y z : rel 2 a x -> rel 2 b y -> rel 2 c z ->
  srel (fst (fst (inv_3_way O1 a b c))) (fst (fst (inv_3_way O2 x y z))) /\
  srel (snd (fst (inv_3_way O1 a b c))) (snd (fst (inv_3_way O2 x y z))) /\
  srel (snd (inv_3_way O1 a b c)) (snd (inv_3_way O2 x y z)).
Proof. start inv_3_way. split; [|split]; bnds. Qed.
Lemma get_A_sim a b c x y z : rel 2 a x -> rel 2 b y -> rel 2 c z -> srel (get_A O1 a b c) (get_A O2 x y z).
Proof. start get_A. bnds. Qed.
Lemma j_inv_sim a c x z : rel 2 a x -> rel 2 c z -> srel (j_inv O1 a c) (j_inv O2 x z).
Proof. start j_inv. bnds. Qed.
Lemma xDBLADD_sim P Q P' Q' a b c x y z : prel 2 P P' -> prel 2 Q Q' -> rel 2 a x -> rel 2 b y -> rel 2 c z ->
  psrel (fst (xDBLADD O1 P Q a b c)) (fst (xDBLADD O2 P' Q' x y z)) /\
  psrel (snd (xDBLADD O1 P Q a b c)) (snd (xDBLADD O2 P' Q' x y z)).
Proof. start xDBLADD. split; pts. Qed.
End EcSim.
