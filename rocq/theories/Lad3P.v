(** The three-point ladder and get_A over a field. *)
From Coq Require Import Field.
From Verif Require Import Base BaseP Out Params Ops Ec Models Sidh Fld FieldOps CurveSpec IsogSpec ModelSpec XSpec WalkSpec FldCurve GroupP MultP LadderP IsoP FldIsog FldModels
  XLine XIso Strategy XChain CheckP XIsog WalkP SquareP KumP GridP.
Set Bullet Behavior "Strict Subproofs".

Section L3.
Variable F : fld.
Variables (unit : F) (sqrt : F -> F) (lt : F -> F -> bool) (enc : F -> list Z) (dec : list Z -> F) (rnd : tape -> out (F * tape)).
Local Notation O := (fld_ops F unit sqrt lt enc dec rnd).
Hypothesis two : (kadd k1 k1 : F) <> k0.
Local Open Scope fld_scope.
Definition kth14 := kth F.
Add Field KF14 : kth14.
Ltac toF_eq := match goal with |- ?a = ?b => change (@eq (K F) a b) end.
Implicit Types (A B x t X Z c : F) (q r s d : xl F) (f g : xl F -> xl F).
Local Notation XT := (XT F).
Local Notation repp := (repp F unit sqrt lt enc dec rnd).

Definition nz q : Prop := q <> XInf /\ q <> XF (0 : F).
Lemma nz_rep X Z q : nz q -> rep X Z q -> X <> 0 /\ Z <> 0.
Proof.
  intros [N1 N2]. destruct q as [|x]; [contradiction|]. intros [NZ ->]. split; auto. apply (mul_nz F); auto. congruence.
Qed.
Lemma rep_mul X Z q c : c <> 0 -> rep X Z q -> rep (c * X) (c * Z) q.
Proof. intros Nc. destruct q as [|x]; intros [N ->]; split; try apply (mul_nz F); auto; ring. Qed.
Lemma add_rep A (P Q : pt O) X Z a q1 q2 s d : repp P q1 -> repp Q q2 -> rep X Z d -> nz d -> XT A q1 q2 s d ->
  repp (snd (xDBLADD O P Q X Z a)) s.
Proof.
  intros HP HQ Hd Nd HX. destruct (nz_rep X Z d Nd Hd) as [NX NZ]. destruct (rep_ex F s) as (Xs & Zs & Hs).
  destruct (XT_any F A q1 q2 s d _ _ _ _ _ _ _ _ HX HP HQ Hs Hd) as (l & Nl & E1 & _ & E3).
  rewrite (xDBLADD_form F). unfold XLine.repp. cbn [snd pX pZ].
  assert (N4 : 4 <> 0 :> F) by exact (four_nz F two).
  assert (Nc : 4 * (X * Z) / l <> 0).
  { intros E. assert (Y : 4 * (X * Z) = 0) by (transitivity (4 * (X * Z) / l * l); [field; auto|rewrite E; ring]). revert Y. repeat apply (mul_nz F); auto. }
  apply (rep_mul Xs Zs s _ Nc) in Hs. unfold V1 in E1. unfold V3 in E3.
  replace (4 * ((pX P * pX Q - pZ P * pZ Q) * (pX P * pX Q - pZ P * pZ Q)) * Z) with (4 * (X * Z) / l * Xs).
  2:{ transitivity (4 * (Z / l) * (Xs * X)); [toF_eq; field; auto|]. rewrite E1. toF_eq. field. auto. }
  replace (4 * ((pZ P * pX Q - pX P * pZ Q) * (pZ P * pX Q - pX P * pZ Q)) * X) with (4 * (X * Z) / l * Zs).
  2:{ transitivity (4 * (X / l) * (Zs * Z)); [toF_eq; field; auto|]. rewrite E3. toF_eq. field. auto. }
  exact Hs.
Qed.
Lemma dbladd_dbl A (P Q : pt O) X Z a q : A * A <> 4 -> 4 * a = A + 2 -> repp P q -> repp (fst (xDBLADD O P Q X Z a)) (dblx A q).
Proof.
  intros HA Ha HP. rewrite (xDBLADD_form F). cbn [fst]. apply (dbl_rep F unit sqrt lt enc dec rnd two A HA); auto; [apply (one_nz F)|].
  toF_eq. rewrite Ha. ring.
Qed.

(** What the ladder computes: any three sequences of x-coordinates related as the registers of the ladder are. *)
Definition lad3 A (b : nat -> bool) (N : nat) (D S T : nat -> xl F) : Prop :=
  forall i, (i < N)%nat -> D (Datatypes.S i) = dblx A (D i) /\ nz (S i) /\ nz (T i) /\
    if b i then T (Datatypes.S i) = T i /\ XT A (D i) (S i) (S (Datatypes.S i)) (T i)
    else S (Datatypes.S i) = S i /\ XT A (D i) (T i) (T (Datatypes.S i)) (S i).
Lemma lad3_hom A A' f b N D S T : xhom F A A' f -> lad3 A b N D S T -> (forall i, (i < N)%nat -> nz (f (S i)) /\ nz (f (T i))) ->
  lad3 A' b N (fun i => f (D i)) (fun i => f (S i)) (fun i => f (T i)).
Proof.
  intros (_ & H2 & _ & _ & HX) HL HN i Hi. destruct (HL i Hi) as (E & _ & _ & Hb). destruct (HN i Hi) as [N1 N2].
  rewrite E, H2. repeat split; try apply N1; try apply N2. destruct (b i); destruct Hb as [-> Hb]; split; auto.
Qed.

Section Run.
Variable A : F.
Hypothesis HA : A * A <> 4.
Variables (w : Z) (m : list Z) (N : nat) (b : nat -> bool).
Hypothesis Hb : forall i, (i < N)%nat -> ladder_bit w m i = Ok (b i).
Variables D S T : nat -> xl F.
Hypothesis HL : lad3 A b N D S T.
Variable a : F.
Hypothesis Ha : 4 * a = A + 2.
Lemma lad3_loop_ok (k : nat) : forall i prev R0 R2 R, (i + k = N)%nat -> repp R0 (D i) ->
  repp (fst (swap_points O prev R R2)) (S i) -> repp (snd (swap_points O prev R R2)) (T i) ->
  exists (c : bool) U0 U2 U, lad3_loop O w m a k i prev R0 R2 R = Ok (c, U0, U2, U) /\ repp (fst (swap_points O c U U2)) (S N).
Proof.
  induction k as [|k IH]; intros i prev R0 R2 R Hi H0 HS HT; cbn [lad3_loop].
  - exists prev, R0, R2, R. split; [reflexivity|]. replace N with i by lia. exact HS.
  - assert (Li : (i < N)%nat) by lia. rewrite (Hb i Li). cbn [bind].
    destruct (HL i Li) as (ED & NS & NT & Hx).
    pose proof (swap_swap F unit sqrt lt enc dec rnd prev (b i) R R2) as SS.
    destruct (swap_points O prev R R2) as [S' T']. rewrite <- SS. cbn [fst snd] in HS, HT. clear SS.
    destruct (b i); cbn [swap_points].
    + destruct (xDBLADD O R0 S' (pX T') (pZ T') a) as [U0 U2] eqn:EU. destruct Hx as [ET Hx].
      apply IH; [lia| | |].
      * rewrite ED. change U0 with (fst (U0, U2)). rewrite <- EU. now apply dbladd_dbl.
      * cbn [swap_points fst]. change U2 with (snd (U0, U2)). rewrite <- EU. now apply (add_rep A _ _ _ _ _ (D i) (S i) _ (T i)).
      * cbn [swap_points snd]. rewrite ET. exact HT.
    + destruct (xDBLADD O R0 T' (pX S') (pZ S') a) as [U0 U2] eqn:EU. destruct Hx as [ES Hx].
      apply IH; [lia| | |].
      * rewrite ED. change U0 with (fst (U0, U2)). rewrite <- EU. now apply dbladd_dbl.
      * cbn [swap_points fst]. rewrite ES. exact HS.
      * cbn [swap_points snd]. change U2 with (snd (U0, U2)). rewrite <- EU. now apply (add_rep A _ _ _ _ _ (D i) (T i) _ (S i)).
Qed.
End Run.
Lemma rep1 x : repp (@mkPt O x (1 : F)) (XF x). Proof. split; [apply (one_nz F)|cbn; ring]. Qed.
Lemma LADDER3PT_ok A w m N b D S T (xP xQ xR : F) : A * A <> 4 -> (forall i, (i < N)%nat -> ladder_bit w m i = Ok (b i)) -> lad3 A b N D S T ->
  D 0%nat = XF xQ -> S 0%nat = XF xP -> T 0%nat = XF xR -> exists R, LADDER3PT O w xP xQ xR m N A = Ok R /\ repp R (S N).
Proof.
  intros HA Hb HL HD HS HT. unfold LADDER3PT.
  assert (Ha : 4 * lad3_A24 O A = A + 2) by (unfold lad3_A24; cbn; toF_eq; field; exact two).
  destruct (lad3_loop_ok A HA w m N b Hb D S T HL (lad3_A24 O A) Ha N 0 false (@mkPt O xQ (1 : F)) (@mkPt O xR (1 : F)) (@mkPt O xP (1 : F))) as (c & U0 & U2 & U & E & H).
  - reflexivity.
  - rewrite HD. apply rep1.
  - cbn [swap_points fst]. rewrite HS. apply rep1.
  - cbn [swap_points snd]. rewrite HT. apply rep1.
  - cbn [fld_ops o_one]. rewrite E. cbn [bind]. eexists. split; [reflexivity|exact H].
Qed.
Lemma get_A_ok A (xP xQ xR : F) s : XT A (XF xP) (XF xQ) s (XF xR) -> xP <> 0 -> xQ <> 0 -> xR <> 0 -> get_A O xP xQ xR = A.
Proof.
  intros HX NP NQ NR. destruct (rep_ex F s) as (Xs & Zs & Hs).
  destruct (XT_any F A _ _ s _ xP 1 xQ 1 Xs Zs xR 1 HX) as (l & Nl & E1 & E2 & E3); auto; try (split; [apply (one_nz F)|ring]).
  assert (Q : l * (V1 F xP 1 xQ 1 - xR * V2 F A xP 1 xQ 1 + xR * xR * V3 F xP 1 xQ 1) = 0).
  { transitivity (l * V1 F xP 1 xQ 1 - xR * (l * V2 F A xP 1 xQ 1) + xR * xR * (l * V3 F xP 1 xQ 1)); [ring|]. rewrite <- E1, <- E2, <- E3. ring. }
  assert (Q' : V1 F xP 1 xQ 1 - xR * V2 F A xP 1 xQ 1 + xR * xR * V3 F xP 1 xQ 1 = 0).
  { match type of Q with _ * ?y = _ => destruct (kdec y 0) as [E|Ne]; [exact E|exfalso; revert Q; now apply (mul_nz F)] end. }
  unfold V1, V2, V3 in Q'. unfold get_A. cbn.
  assert (N4 : 4 * (xP * xQ * xR) <> 0) by (repeat apply (mul_nz F); auto).
  match type of Q' with ?y = 0 => transitivity (A + y / (4 * (xP * xQ * xR))) end.
  - assert (N5 : xP * xQ * xR + xP * xQ * xR + (xP * xQ * xR + xP * xQ * xR) <> 0) by (intros E; apply N4; rewrite <- E; ring).
    toF_eq. field. repeat split; auto; exact (four_nz F two).
  - rewrite Q'. transitivity (A + 0 * (0 / (4 * (xP * xQ * xR)))); [|ring]. toF_eq. field. repeat split; auto; exact (four_nz F two).
Qed.
End L3.
