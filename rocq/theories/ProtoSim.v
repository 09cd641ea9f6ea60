(** The protocol layer (Proto.v) respects simulations: Verify and Prove give the same results. *)
From Verif Require Import Base Out Params Poik Hashing Codec Ops Ec Models Proto Sim ModelsSim.

Section ProtoSim.
Variable K : pok.
Variables (O1 O2 : fops) (S : sim O1 O2).
Hypothesis HRand : rand_sim S.
Variables (junk1 : pt O1) (junk2 : pt O2).
Notation rel := (rel S). Notation srel := (srel S). Notation prel := (prel _ _ S). Notation psrel := (psrel _ _ S).
Notation crel := (crel _ _ S). Notation bytes_ok := (bytes_ok S).
Notation P := (fpar K).

Lemma out_rel_eq {A} (a b : out A) : out_rel eq a b -> a = b.
Proof. intros []; congruence. Qed.
Lemma tprel_eq {A} (a b : A * tape) : tprel eq a b -> a = b.
Proof. destruct a, b; intros [H1 H2]; cbn in *; congruence. Qed.

Lemma pack_curve_sim E F : crel E F -> out_rel eq (pack_curve O1 E) (pack_curve O2 F).
Proof.
  intros H. unfold pack_curve. eapply out_bind; [eapply canonical_sim; eauto|].
  intros i j (H1 & _). constructor. apply (s_enc _ _ S); auto.
Qed.
Lemma pack_point_sim E F R R' : crel E F -> prel 2 R R' -> out_rel eq (pack_point O1 E R) (pack_point O2 F R').
Proof.
  intros H HR. unfold pack_point. eapply out_bind; [eapply canonical_sim; eauto|].
  intros i j Hi. constructor. pose proof (eval_iso_sim _ _ S _ _ _ _ Hi HR) as []. now apply fp2div_enc_sim with (S := S).
Qed.
Lemma unpack_curve_sim a : bytes_ok a -> crel (unpack_curve O1 a) (unpack_curve O2 a).
Proof. intros H. split; cbn; [apply s_rel, s_dec; auto|apply s_rel_one]. Qed.
Lemma unpack_point_sim a : bytes_ok a -> psrel (unpack_point O1 a) (unpack_point O2 a).
Proof. intros H. split; cbn; [apply s_dec; auto|apply s_one]. Qed.
Lemma check_packed_sim a tp : bytes_ok a -> out_rel (tprel eq) (check_packed K O1 junk1 a tp) (check_packed K O2 junk2 a tp).
Proof. intros H. apply Check_Curve_sim with (S := S); auto. now apply unpack_curve_sim. Qed.
Lemma to_canonical_sim E F b b' : crel E F -> psrel b b' ->
  out_rel (fun x y => crel (fst x) (fst y) /\ psrel (snd x) (snd y)) (to_canonical O1 E b) (to_canonical O2 F b').
Proof.
  intros H Hb. unfold to_canonical. eapply out_bind; [eapply canonical_sim; eauto|].
  intros i j Hi. constructor. cbn [fst snd]. split; [split; cbn; [apply Hi|apply s_rel_one]|].
  now apply eval_iso_sims.
Qed.
Definition ocprel (a : option (curve O1 * pt O1)) (b : option (curve O2 * pt O2)) : Prop :=
  match a, b with Some (E, p), Some (F, q) => crel E F /\ psrel p q | None, None => True | _, _ => False end.
Lemma chain_A_sim xs : Forall bytes_ok xs -> forall E F b b', crel E F -> psrel b b' ->
  out_rel ocprel (chain_A_loop K O1 E b xs) (chain_A_loop K O2 F b' xs).
Proof.
  induction 1 as [|x xs Hx _ IH]; intros E F b b' HE Hb; cbn [chain_A_loop]; [constructor; split; auto|].
  eapply out_bind; [apply to_canonical_sim; eauto|]. intros [E1 b1] [E2 b2] [HE1 Hb1]. cbn [fst snd] in *.
  eapply out_bind; [apply Isogeny_A_sim with (S := S) (q' := Some b2); cbn; eauto; now apply unpack_point_sim|].
  intros [[E3 [q|]]|] [[E4 [q'|]]|]; cbn; intros Hr; try contradiction; try (constructor; cbn; auto; fail);
  destruct Hr; try contradiction.
  apply IH; auto.
Qed.
Definition ocrel (a : option (curve O1)) (b : option (curve O2)) : Prop :=
  match a, b with Some E, Some F => crel E F | None, None => True | _, _ => False end.
Lemma Unpack_Chain_A_sim a xs tp : bytes_ok a -> Forall bytes_ok xs ->
  out_rel (tprel ocrel) (Unpack_Chain_A K O1 junk1 a xs tp) (Unpack_Chain_A K O2 junk2 a xs tp).
Proof.
  intros Ha Hxs. unfold Unpack_Chain_A.
  eapply out_bind; [apply check_packed_sim; auto|]. intros [? t1] [? t2] [_ Et]. cbn [fst snd] in *. subst t2.
  destruct Hxs as [|x xs Hx Hxs]; [constructor|].
  eapply out_bind; [apply Isogeny_A_sim with (S := S) (q' := None); cbn; eauto; [now apply unpack_curve_sim|now apply unpack_point_sim]|].
  intros [[E1 ?]|] [[E2 ?]|]; cbn; intros Hr; try contradiction; [|constructor; split; cbn; auto].
  destruct Hr as [HE _].
  eapply out_bind; [apply chain_A_sim; eauto; split; cbn; [apply s_zero|apply s_one]|].
  intros [[E3 b1]|] [[E4 b2]|]; cbn; intros Hr; try contradiction; [|constructor; split; cbn; auto].
  destruct Hr as [HE3 [_ Hb]]. rewrite (is0_sim _ _ S _ _ Hb).
  constructor. split; cbn; auto. destruct (is0 O2 _); cbn; auto.
Qed.
Lemma chain_B_sim xs : Forall bytes_ok xs -> forall E F b b' tp, crel E F -> psrel b b' ->
  out_rel (tprel ocprel) (chain_B_loop K O1 E b xs tp) (chain_B_loop K O2 F b' xs tp).
Proof.
  induction 1 as [|x xs Hx _ IH]; intros E F b b' tp HE Hb; cbn [chain_B_loop]; [constructor; split; cbn; auto|].
  eapply out_bind; [apply to_canonical_sim; eauto|]. intros [E1 b1] [E2 b2] [HE1 Hb1]. cbn [fst snd] in *.
  eapply out_bind; [apply Isogeny_B_sim with (S := S) (q' := Some b2); cbn; eauto; now apply unpack_point_sim|].
  intros [r t1] [r' t2] [Hr Et]. cbn [fst snd] in *. subst t2.
  destruct r as [[[E3 [q|]] z]|], r' as [[[E4 [q'|]] z']|]; cbn in Hr; try contradiction;
  try (constructor; split; cbn; auto; fail); destruct Hr as (? & ? & ?); try contradiction.
  apply IH; auto.
Qed.
Lemma Unpack_Chain_B_sim a xs tp : bytes_ok a -> Forall bytes_ok xs ->
  out_rel (tprel ocrel) (Unpack_Chain_B K O1 junk1 a xs tp) (Unpack_Chain_B K O2 junk2 a xs tp).
Proof.
  intros Ha Hxs. unfold Unpack_Chain_B.
  eapply out_bind; [apply check_packed_sim; auto|]. intros [? t1] [? t2] [_ Et]. cbn [fst snd] in *. subst t2.
  destruct Hxs as [|x xs Hx Hxs].
  { constructor. split; cbn; auto. rewrite (is0_sim _ _ S _ _ (s_zero _ _ S)). destruct (is0 O2 _); cbn; auto.
    now apply unpack_curve_sim. }
  eapply out_bind; [apply Isogeny_B_sim with (S := S) (q' := None); cbn; eauto; [now apply unpack_curve_sim|now apply unpack_point_sim]|].
  intros [r t] [r' t2] [Hr Et]. cbn [fst snd] in *. subst t2.
  destruct r as [[[E1 z] [q|]]|], r' as [[[E2 z'] [q'|]]|]; cbn in Hr; try contradiction;
  try (constructor; split; cbn; auto; fail); destruct Hr as (HE & _ & Hb); try contradiction.
  eapply out_bind; [apply chain_B_sim; eauto|]. intros [r t'] [r' t2] [Hr Et]. cbn [fst snd] in *. subst t2.
    destruct r as [[E3 b1]|], r' as [[E4 b2]|]; cbn in Hr; try contradiction; [|constructor; split; cbn; auto].
    destruct Hr as [HE3 [_ Hb3]]. rewrite (is0_sim _ _ S _ _ Hb3).
    constructor. split; cbn; auto. destruct (is0 O2 _); cbn; auto.
Qed.
Lemma enc_j_sim E F : crel E F -> enc_j O1 E = enc_j O2 F.
Proof. intros [H1 H2]. unfold enc_j. apply (s_enc _ _ S). apply s_rel. now apply j_inv_sim. Qed.

(** All packed elements a verifier may read have the right shape. *)
Definition resp_bytes_ok (r : response) : Prop :=
  Forall bytes_ok (left_xs K r) /\ Forall bytes_ok (bottom_xs K r) /\ bytes_ok (bottom_E2 K r) /\ Forall bytes_ok (right_xs K r).
Definition proof_bytes_ok (prf : proof) : Prop :=
  bytes_ok (p_E0 prf) /\ bytes_ok (p_E1 prf) /\ Forall resp_bytes_ok (p_resp prf).

Lemma Unpack_Response_sim prf r tp : bytes_ok (p_E0 prf) -> bytes_ok (p_E1 prf) -> resp_bytes_ok r ->
  Unpack_Response K O1 junk1 prf r tp = Unpack_Response K O2 junk2 prf r tp.
Proof.
  intros H0 H1 (HL & HB & HE & HR). apply out_rel_eq. unfold Unpack_Response. cbv zeta.
  destruct (_ =? _).
  { eapply out_bind; [apply Unpack_Chain_B_sim; auto|]. intros [[E|] t] [[F|] t'] [Hr E']; cbn [fst snd] in *;
      subst t'; cbn in Hr; try contradiction; constructor; auto. now rewrite (enc_j_sim _ _ Hr). }
  destruct (_ =? _).
  { eapply out_bind; [apply check_packed_sim; auto|]. intros [ok t] [ok' t'] E. apply tprel_eq in E. inversion E; subst ok' t'.
    destruct ok; [|constructor; auto].
    eapply out_bind; [apply Unpack_Chain_A_sim; auto|]. intros [[E1|] t1] [[F|] t'] [Hr E']; cbn [fst snd] in *;
      subst t'; cbn in Hr; try contradiction; constructor; auto.
    now rewrite (enc_j_sim _ _ Hr), (enc_j_sim _ _ (unpack_curve_sim _ HE)). }
  destruct (_ =? _); [|constructor; auto].
  eapply out_bind; [apply Unpack_Chain_B_sim; auto|]. intros [[E|] t] [[F|] t'] [Hr E']; cbn [fst snd] in *;
    subst t'; cbn in Hr; try contradiction; constructor; auto. now rewrite (enc_j_sim _ _ Hr).
Qed.
Lemma responses_sim prf tps rs : bytes_ok (p_E0 prf) -> bytes_ok (p_E1 prf) -> Forall resp_bytes_ok rs ->
  forall i, responses K O1 junk1 prf tps i rs = responses K O2 junk2 prf tps i rs.
Proof.
  intros H0 H1. induction 1 as [|r rs Hr _ IH]; intros i; cbn [responses]; auto.
  rewrite Unpack_Response_sim by auto. now rewrite IH.
Qed.
Theorem Verify_sim fuel prf tp tps : proof_bytes_ok prf ->
  Verify K O1 junk1 fuel prf tp tps = Verify K O2 junk2 fuel prf tp tps.
Proof.
  intros (H0 & H1 & HR). apply out_rel_eq. unfold Verify.
  eapply out_bind; [apply check_packed_sim; auto|]. intros [b t] [b' t'] E. apply tprel_eq in E. inversion E; subst b' t'. clear E.
  destruct (negb b); [constructor; auto|].
  eapply out_bind; [apply check_packed_sim; auto|]. intros [c t1] [c' t'] E. apply tprel_eq in E. inversion E; subst c' t'. clear E.
  destruct (negb c); [constructor; auto|].
  rewrite responses_sim by auto. destruct (responses K O2 _ _ _ _ _) as [[hs|]| | | |]; try (constructor; auto; fail). cbn [bind].
  rewrite (enc_j_sim _ _ (unpack_curve_sim _ H0)), (enc_j_sim _ _ (unpack_curve_sim _ H1)).
  destruct (Challenge _ _ _ _); constructor; auto.
Qed.

(** ** The prover *)
Definition r3rel (a : list (curve O1) * list (pt O1) * tape) (b : list (curve O2) * list (pt O2) * tape) : Prop :=
  Forall2 crel (fst (fst a)) (fst (fst b)) /\ Forall2 psrel (snd (fst a)) (snd (fst b)) /\ snd a = snd b.
Lemma random_chain_A_sim k : forall f E F tp, crel E F ->
  out_rel r3rel (random_chain_A K O1 k f E tp) (random_chain_A K O2 k f F tp).
Proof.
  induction k as [|k IH]; intros f E F tp HE; cbn [random_chain_A].
  { constructor. split; [|split]; cbn; auto. }
  eapply out_bind; [apply Random_Point_sim with (S := S); eauto|].
  { destruct f; cbn; auto. split; cbn; [apply s_zero|apply s_unit]. }
  intros [R t] [R' t'] [HR Et]. cbn [fst snd] in *. subst t'.
  eapply out_bind; [apply Isogeny_A_sim with (S := S) (q' := None); cbn; eauto|].
  intros [[E1 ?]|] [[E2 ?]|]; cbn; intros Hr; try contradiction; [|constructor].
  eapply out_bind; [apply IH; apply Hr|]. intros [[Es Ps] t1] [[Fs Qs] t2] (H1 & H2 & H3). cbn [fst snd] in *. subst t2.
  constructor. split; [|split]; cbn; auto.
Qed.
Lemma random_chain_B_sim k : forall b b' E F tp, crel E F -> oprel _ _ S b b' ->
  out_rel r3rel (random_chain_B K O1 k b E tp) (random_chain_B K O2 k b' F tp).
Proof.
  induction k as [|k IH]; intros b b' E F tp HE Hb; cbn [random_chain_B].
  { constructor. split; [|split]; cbn; auto. }
  eapply out_bind; [apply Random_Point_sim with (S := S); eauto|].
  intros [R t] [R' t'] [HR Et]. cbn [fst snd] in *. subst t'.
  eapply out_bind; [apply Isogeny_B_sim with (S := S) (q' := None); cbn; eauto|].
  intros [r t1] [r' t2] [Hr Et]. cbn [fst snd] in *. subst t2.
  destruct r as [[[E1 z] q]|], r' as [[[E2 z'] q']|]; cbn in Hr; try contradiction; [|constructor].
  destruct Hr as (HE1 & _ & Hq).
  eapply out_bind; [apply IH; eauto|]. intros [[Es Ps] t3] [[Fs Qs] t2] (H1 & H2 & H3). cbn [fst snd] in *. subst t2.
  constructor. split; [|split]; cbn; auto.
Qed.
Definition chrel (a : chain O1) (b : chain O2) : Prop := Forall2 crel (chE _ a) (chE _ b) /\ Forall2 psrel (chP _ a) (chP _ b).
Lemma map_eq2 {A B C} (R : A -> B -> Prop) (f : A -> C) (g : B -> C) l m :
  (forall a b, R a b -> f a = g b) -> Forall2 R l m -> map f l = map g m.
Proof. intros H. induction 1; cbn; auto. f_equal; auto. Qed.
Lemma Generate_sim a tp : bytes_ok a -> Generate K O1 junk1 a tp = Generate K O2 junk2 a tp.
Proof.
  intros Ha. apply out_rel_eq. unfold Generate.
  eapply out_bind; [apply check_packed_sim; auto|]. intros [ok t] [ok' t'] E. apply tprel_eq in E. inversion E; subst ok' t'.
  destruct ok; [|constructor; auto].
  unfold Random_Isogeny_Chain_A.
  pose proof (random_chain_A_sim (width K) true _ _ t (unpack_curve_sim _ Ha)) as H.
  destruct H as [[[Es Ps] t1] [[Fs Qs] t2] (H1 & H2 & H3)| | | |]; cbn [bind]; try constructor.
  cbn [fst snd chE chP] in *. subst t2. do 2 f_equal. f_equal.
  - apply map_eq2 with (R := crel); auto. intros x y []. now apply fp2div_enc_sim with (S := S).
  - apply map_eq2 with (R := psrel); auto. intros x y []. apply fp2div_enc_sim with (S := S); now apply s_rel.
Qed.

Definition r4 (a : list (curve O1) * list (pt O1) * curve O1 * pt O1) (b : list (curve O2) * list (pt O2) * curve O2 * pt O2) : Prop :=
  Forall2 crel (fst (fst (fst a))) (fst (fst (fst b))) /\ Forall2 psrel (snd (fst (fst a))) (snd (fst (fst b))) /\
  crel (snd (fst a)) (snd (fst b)) /\ psrel (snd a) (snd b).
Lemma square_row_sim Es Fs : Forall2 crel Es Fs -> forall Ps Qs El Fl Kl Ll, Forall2 psrel Ps Qs -> crel El Fl -> psrel Kl Ll ->
  out_rel r4 (square_row K O1 Es Ps El Kl) (square_row K O2 Fs Qs Fl Ll).
Proof.
  induction 1 as [|E F Es Fs HE _ IH]; intros Ps Qs El Fl Kl Ll HP HEl HKl.
  { cbn. constructor. split; [|split; [|split]]; cbn; auto. }
  destruct HP as [|R R' Ps Qs HR HP]; cbn [square_row].
  { constructor. split; [|split; [|split]]; cbn; auto. }
  eapply out_bind; [apply Isogeny_A_sim with (S := S) (q' := Some Ll); cbn; eauto|]. intros a b Ha.
  eapply out_bind; [apply Isogeny_B_sim with (S := S) (q' := Some R'); cbn; eauto|]. intros [c t] [d t'] [Hc Et].
  cbn [fst snd] in *. subst t'.
  destruct a as [[Ea [qa|]]|], b as [[Eb [qb|]]|]; cbn in Ha; try contradiction; try (constructor; fail);
  destruct Ha as [HEa Ha]; try contradiction.
  destruct c as [[[Ec [qc|]] zc]|], d as [[[Ed [qd|]] zd]|]; cbn in Hc; try contradiction; try (constructor; fail);
  destruct Hc as (HEc & Hc & _); try contradiction.
  eapply out_bind; [apply IH; eauto|].
  intros [[[Es1 Ps1] E1] R1] [[[Es2 Ps2] E2] R2] (H1 & H2 & H3 & H4). cbn [fst snd] in *.
  constructor. split; [|split; [|split]]; cbn; auto.
Qed.
Definition cprel (a : curve O1 * pt O1) (b : curve O2 * pt O2) : Prop := crel (fst a) (fst b) /\ psrel (snd a) (snd b).
Definition r5 (a : list (curve O1) * list (pt O1) * list (curve O1 * pt O1)) (b : list (curve O2) * list (pt O2) * list (curve O2 * pt O2)) : Prop :=
  Forall2 crel (fst (fst a)) (fst (fst b)) /\ Forall2 psrel (snd (fst a)) (snd (fst b)) /\ Forall2 cprel (snd a) (snd b).
Lemma square_rows_sim l m : Forall2 cprel l m -> forall Es Fs Ps Qs, Forall2 crel Es Fs -> Forall2 psrel Ps Qs ->
  out_rel r5 (square_rows K O1 l Es Ps) (square_rows K O2 m Fs Qs).
Proof.
  induction 1 as [|[E R] [F R'] l m [HE HR] _ IH]; intros Es Fs Ps Qs HEs HPs; cbn [square_rows].
  { constructor. split; [|split]; cbn; auto. }
  cbn [fst snd] in *. eapply out_bind; [apply square_row_sim; eauto|].
  intros [[[Es1 Ps1] E1] R1] [[[Es2 Ps2] E2] R2] (H1 & H2 & H3 & H4). cbn [fst snd] in *.
  eapply out_bind; [apply IH; eauto|]. intros [[Es3 Ps3] r1] [[Es4 Ps4] r2] (H5 & H6 & H7). cbn [fst snd] in *.
  constructor. split; [|split]; cbn; auto. constructor; auto. split; auto.
Qed.
Definition instrel (a : inst O1) (b : inst O2) : Prop :=
  i_r2 _ a = i_r2 _ b /\ i_r3 _ a = i_r3 _ b /\ crel (i_E2 _ a) (i_E2 _ b) /\ crel (i_E3 _ a) (i_E3 _ b) /\
  chrel (i_left _ a) (i_left _ b) /\ chrel (i_bottom _ a) (i_bottom _ b) /\ chrel (i_right _ a) (i_right _ b).
Lemma Forall2_map_same {A B C} (R : B -> C -> Prop) (f : A -> B) (g : A -> C) (Q : A -> Prop) l :
  (forall a, Q a -> R (f a) (g a)) -> Forall Q l -> Forall2 R (map f l) (map g l).
Proof. intros H. induction 1; cbn; constructor; auto. Qed.
Lemma Forall2_firstn {A B} (R : A -> B -> Prop) n l m : Forall2 R l m -> Forall2 R (firstn n l) (firstn n m).
Proof. intros H. revert n. induction H; intros [|n]; cbn; constructor; auto. Qed.
Lemma Forall2_rev {A B} (R : A -> B -> Prop) l m : Forall2 R l m -> Forall2 R (rev l) (rev m).
Proof. induction 1; cbn; auto. apply Forall2_app; auto. Qed.
Lemma Forall2_combine {A B C D} (R : A -> B -> Prop) (Q : C -> D -> Prop) l m l' m' :
  Forall2 R l m -> Forall2 Q l' m' -> Forall2 (fun a b => R (fst a) (fst b) /\ Q (snd a) (snd b)) (combine l l') (combine m m').
Proof. intros H. revert l' m'. induction H; intros ? ? Q0; destruct Q0; cbn; constructor; auto. Qed.
Definition secret_ok (s : secret) : Prop := Forall bytes_ok (sE s) /\ Forall bytes_ok (sP s).
Definition instres (a : inst O1 * (list Z * list Z) * tape) (b : inst O2 * (list Z * list Z) * tape) : Prop :=
  instrel (fst (fst a)) (fst (fst b)) /\ snd (fst a) = snd (fst b) /\ snd a = snd b.
Lemma Instance_sim sec tp : secret_ok sec -> out_rel instres (Instance K O1 sec tp) (Instance K O2 sec tp).
Proof.
  intros [HE HP]. unfold Instance. cbv zeta.
  assert (F1 : Forall2 crel (map (unpack_curve O1) (sE sec)) (map (unpack_curve O2) (sE sec))).
  { apply Forall2_map_same with (Q := bytes_ok); auto. apply unpack_curve_sim. }
  assert (F2 : Forall2 psrel (map (unpack_point O1) (sP sec)) (map (unpack_point O2) (sP sec))).
  { apply Forall2_map_same with (Q := bytes_ok); auto. apply unpack_point_sim. }
  remember (map (unpack_curve O1) (sE sec)) as b1. remember (map (unpack_curve O2) (sE sec)) as b2. clear Heqb1 Heqb2.
  remember (map (unpack_point O1) (sP sec)) as q1. remember (map (unpack_point O2) (sP sec)) as q2. clear Heqq1 Heqq2.
  pose proof F1 as F1'. destruct F1' as [|E F Es Fs HEF _]; [constructor|].
  unfold Random_Isogeny_Chain_B.
  pose proof (random_chain_B_sim (height K) None None _ _ tp HEF I) as H.
  destruct H as [[[Es1 Ps1] t1] [[Fs1 Qs1] t2] (H1 & H2 & H3)| | | |]; cbn [bind]; try constructor.
  cbn [fst snd chE chP] in *. subst t2.
  eapply out_bind; [apply square_rows_sim; [apply Forall2_combine; eauto|apply Forall2_firstn; eauto|eauto]|].
  intros [[Es2 Ps2] r1] [[Fs2 Qs2] r2] (H4 & H5 & H6). cbn [fst snd] in *.
  pose proof (Forall2_rev _ _ _ H4) as V1. pose proof (Forall2_rev _ _ _ H5) as V2.
  pose proof (Forall2_rev _ _ _ H6) as V3. pose proof (Forall2_rev _ _ _ H1) as V4.
  destruct V1 as [|Ea Eb ? ? HEa _]; [constructor|]. destruct V2 as [|Pa Pb ? ? HPa _]; [constructor|].
  destruct V3 as [|[Er Pr] [Es3 Ps3] ? ? [HEr HPr] _]; [constructor|]. cbn [fst snd] in HEr, HPr.
  destruct V4 as [|E2 E2' ? ? HE2 _]; [constructor|].
  eapply out_bind; [apply Isogeny_A_sim with (S := S) (q' := None); cbn; eauto|]. intros a b Ha.
  eapply out_bind; [apply Isogeny_B_sim with (S := S) (q' := None); cbn; eauto|]. intros [c t] [d t'] [Hc Et].
  cbn [fst snd] in *. subst t'.
  destruct a as [[Eaa qa]|], b as [[Ebb qb]|]; cbn in Ha; try contradiction; try (constructor; fail).
  destruct Ha as [HEaa _].
  destruct c as [[[Ecc qc] zc]|], d as [[[Edd qd] zd]|]; cbn in Hc; try contradiction; try (constructor; fail).
  destruct Hc as (HEcc & _ & _).
  destruct (take_bytes _ t) as [[r2b t2]| | | |]; cbn [bind]; try constructor.
  destruct (take_bytes _ t2) as [[r3b t3]| | | |]; cbn [bind]; try constructor.
  rewrite (enc_j_sim _ _ HE2), (enc_j_sim _ _ HEcc).
  split; [|split]; cbn [fst snd]; auto.
  split; [|split; [|split; [|split; [|split; [|split]]]]]; cbn [i_r2 i_r3 i_E2 i_E3 i_left i_bottom i_right]; auto.
  - split; cbn; auto.
  - split; cbn; auto. apply Forall2_app; auto.
  - split; cbn [chE chP].
    + apply Forall2_app; auto. clear - H6. induction H6 as [|? ? ? ? []]; cbn; auto.
    + clear - H6. induction H6 as [|? ? ? ? []]; cbn; auto.
Qed.

Lemma Pack_Chain_A_sim l m tp : Forall2 cprel l m -> Pack_Chain_A K O1 l tp = Pack_Chain_A K O2 m tp.
Proof.
  intros H. revert tp. induction H as [|[E R] [F R'] l m [HE HR] _ IH]; intros tp; cbn [Pack_Chain_A]; auto.
  cbn [fst snd] in *. destruct (random_odd_A K tp) as [[sc t]| | | |]; cbn [bind]; auto.
  assert (HL : out_rel (prel 2) (Ladder O1 (radix P) R sc (fp2div O1 (cA E) (cC E)) (e2 P))
                                (Ladder O2 (radix P) R' sc (fp2div O2 (cA F) (cC F)) (e2 P))).
  { apply Ladder_sim; [now apply ps_rel|]. destruct HE. apply s_rel. now apply fp2div_sim. }
  destruct HL as [Q Q' HQ| | | |]; cbn [bind]; auto.
  rewrite (out_rel_eq _ _ (pack_point_sim _ _ _ _ HE HQ)). now rewrite IH.
Qed.
Lemma Pack_Chain_B_sim l m : Forall2 cprel l m -> Pack_Chain_B O1 l = Pack_Chain_B O2 m.
Proof.
  induction 1 as [|[E R] [F R'] l m [HE HR] _ IH]; cbn [Pack_Chain_B]; auto. cbn [fst snd] in *.
  rewrite (out_rel_eq _ _ (pack_point_sim _ _ _ _ HE (ps_rel _ _ _ _ _ HR))). now rewrite IH.
Qed.
Lemma pairs_sim a b : chrel a b -> Forall2 cprel (pairs _ a) (pairs _ b).
Proof. intros [H1 H2]. apply Forall2_combine; auto. Qed.
Lemma Pack_Response_sim w v v' c old tp : instrel v v' ->
  Pack_Response K O1 w v c old tp = Pack_Response K O2 w v' c old tp.
Proof.
  intros (E1 & E2 & HE2 & HE3 & HL & HB & HR). unfold Pack_Response.
  rewrite (Pack_Chain_B_sim _ _ (pairs_sim _ _ HL)), (Pack_Chain_B_sim _ _ (pairs_sim _ _ HR)),
    (Pack_Chain_A_sim _ _ tp (pairs_sim _ _ HB)), (out_rel_eq _ _ (pack_curve_sim _ _ HE2)), E1, E2. reflexivity.
Qed.
Definition ilrel (a : inst O1 * (list Z * list Z)) (b : inst O2 * (list Z * list Z)) : Prop :=
  instrel (fst a) (fst b) /\ snd a = snd b.
Lemma instances_sim sec tps k : secret_ok sec -> forall i,
  out_rel (Forall2 ilrel) (instances K O1 sec tps i k) (instances K O2 sec tps i k).
Proof.
  intros HS. induction k as [|k IH]; intros i; cbn [instances]; [constructor; constructor|].
  eapply out_bind; [apply Instance_sim; auto|]. intros [[v c] t] [[v' c'] t'] (H1 & H2 & H3). cbn [fst snd] in *. subst.
  eapply out_bind; [apply IH|]. intros l l' Hl. constructor. constructor; auto. split; auto.
Qed.
Lemma pack_responses_sim ch l m olds tps : Forall2 ilrel l m -> forall i,
  pack_responses K O1 (combine ch l) olds tps i = pack_responses K O2 (combine ch m) olds tps i.
Proof.
  intros H. revert ch. induction H as [|[v c] [v' c'] l m [H1 H2] _ IH]; intros [|w ch] i; cbn [combine pack_responses]; auto.
  cbn [fst snd] in *. subst c'. rewrite (Pack_Response_sim _ _ _ _ _ _ H1). now rewrite IH.
Qed.
Theorem Prove_sim fuel sec olds tps tps2 : secret_ok sec -> (width K < length (sE sec))%nat ->
  Prove K O1 fuel sec olds tps tps2 = Prove K O2 fuel sec olds tps tps2.
Proof.
  intros HS HL. apply out_rel_eq. unfold Prove. cbv zeta.
  assert (HN : forall i, (i < length (sE sec))%nat -> crel (unpack_curve O1 (nth i (sE sec) [])) (unpack_curve O2 (nth i (sE sec) []))).
  { intros i Hi. apply unpack_curve_sim. destruct HS as [HS _]. rewrite Forall_forall in HS. apply HS. now apply nth_In. }
  pose proof (HN 0%nat ltac:(lia)) as H0. pose proof (HN (width K) HL) as H1.
  eapply out_bind; [apply instances_sim; auto|]. intros l m Hl.
  rewrite (enc_j_sim _ _ H0), (enc_j_sim _ _ H1).
  assert (Es : map snd l = map snd m) by (clear - Hl; induction Hl as [|? ? ? ? []]; cbn; congruence).
  rewrite Es. destruct (Challenge _ _ _ _) as [ch| | | |]; cbn [bind]; try constructor.
  rewrite (out_rel_eq _ _ (pack_curve_sim _ _ H0)), (out_rel_eq _ _ (pack_curve_sim _ _ H1)).
  destruct (pack_curve O2 _) as [a0| | | |]; cbn [bind]; try constructor.
  destruct (pack_curve O2 _) as [a1| | | |]; cbn [bind]; try constructor.
  rewrite (pack_responses_sim _ _ _ _ _ Hl). destruct (pack_responses _ _ _ _ _ _); cbn [bind]; constructor; auto.
Qed.
End ProtoSim.
