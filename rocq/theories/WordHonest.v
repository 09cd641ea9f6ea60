(** What an honest prover computes on digit arrays, and that the verifier does not refuse it. *)
From Coq Require Import Znumtheory Field.
From Verif Require Import Base BaseP Digits DigitsP Out Params Fp Wf FpP Poik Hashing HashSpec HashingP Codec CodecSpec Fld FpRep FpMisc FpMiscP PrimeInst FpInst Ops Ec Models Proto Sim ModelsSim ProtoSim
  WordOps FieldOps WordSim CurveSpec ModelSpec IsogSpec XSpec OrderSpec ProtoSpec WalkSpec HonestSpec FldCurve GroupP MultP OrderP CheckP FldIsog IsoP FldModels WordCurve WordModels WordCheck VerifyP XLine XIso Strategy XChain XIsog WordIsog
  WalkP ChainP OpenP IsoStepP IsoChainP RawP HonestChainP TapeP PackP WordWalk ParseP LayoutP CodecP CodecThm Cli CliP.
From Verif Require HonestP.
Set Bullet Behavior "Strict Subproofs".

(** ** Lists *)
Lemma inner_nth {X} (l : list X) x : In x (removelast (tl l)) -> exists i, (0 < i)%nat /\ (S i < length l)%nat /\ nth_error l i = Some x.
Proof.
  destruct l as [|a l]; [intros []|]. cbn [tl]. intros H. destruct l as [|b l]; [destruct H|].
  assert (N : b :: l <> []) by discriminate. revert N H. generalize (b :: l). clear. intros l N H.
  rewrite (app_removelast_last x N). apply In_nth_error in H as (i & Hi). exists (S i). split; [lia|].
  assert (Hl : (i < length (removelast l))%nat) by (apply nth_error_Some; congruence). cbn [length nth_error]. rewrite app_length. cbn [length]. split; [lia|].
  rewrite nth_error_app1 by auto. exact Hi.
Qed.
Lemma F2_tl {X Y} (R : X -> Y -> Prop) l m : Forall2 R l m -> Forall2 R (tl l) (tl m).
Proof. destruct 1; [constructor|auto]. Qed.
Lemma F2_removelast {X Y} (R : X -> Y -> Prop) l m : Forall2 R l m -> Forall2 R (removelast l) (removelast m).
Proof. induction 1 as [|x y l m H H' IH]; [constructor|]. cbn [removelast]. destruct H' as [|x' y' l' m' H1 H2]; [constructor|]. constructor; auto. Qed.

(** ** Walks on the computed curves *)
Section Paths.
Variable F : fld.
Variable h : nat.
Hypothesis Hh : (1 <= h)%nat.
Lemma raw3_path (o : option (xl F)) (A : F) l (A'' : F) : raw3 F h o A l A'' -> path3 h A o l A''.
Proof.
  induction 1 as [o A|o A p Ap g d' l A'' Ho Nd Hc Hd H IH]; [constructor|]. econstructor; [|exact IH].
  split; [now apply (ord3_xord F h Hh)|]. split; [exact Nd|]. split; [|exact Hd].
  pose proof (Hc XInf) as X. rewrite X. f_equal. f_equal. exact (chain3_inf F h A _ _ _ X).
Qed.
Variable other : F -> F * F * F.
Variable n : nat.
Lemma raw2_path b (A : F) l (A'' : F) f : raw2 F other n b A l A'' f -> path2 other n A (if b then Some (XF k0) else None) l A''.
Proof.
  induction 1 as [b A|b A q A1 f l A'' g Ho Nb HQ H IH]; [constructor|]. econstructor; [|exact IH].
  split; [exact Ho|]. split.
  - intros x Ex. destruct b; [|discriminate]. injection Ex as <-. exact (Nb eq_refl).
  - pose proof (HQ XInf) as X. rewrite X. f_equal. f_equal. exact (quot2_inf F other n A _ _ _ X).
Qed.
End Paths.
Lemma Generate_enc K O (junk : pt O) a tp sec t : Generate K O junk a tp = Ok (Some sec, t) ->
  Forall (fun b => exists x, b = o_enc O x) (sE sec) /\ Forall (fun b => exists x, b = o_enc O x) (sP sec).
Proof.
  unfold Generate. destruct (check_packed K O junk a tp) as [[[|] t1]| | | |]; cbn [bind]; try discriminate.
  destruct (Random_Isogeny_Chain_A K O _ _) as [[c t2]| | | |]; cbn [bind]; try discriminate. intros E.
  match type of E with Ok (Some ?s, _) = _ => assert (sec = s) as -> by congruence end. cbn [sE sP].
  split; apply Forall_map, Forall_forall; intros x _; eexists; reflexivity.
Qed.
Lemma main_verify_run K O (junk : pt O) prf0 stdin o fuel tp tps q rest r : Parse K prf0 stdin = Ok (Some (q, rest)) ->
  main_verify K O junk prf0 stdin true o fuel tp tps = Ok r -> exists b, Verify K O junk fuel q tp tps = Ok b.
Proof. unfold main_verify. intros ->. cbn [bind]. destruct (Verify K O junk fuel q tp tps) as [b| | | |]; cbn [bind]; try discriminate. eauto. Qed.
Lemma main_verify_good K O (junk : pt O) prf0 stdin fuel tp tps q rest r : Parse K prf0 stdin = Ok (Some (q, rest)) -> Verify K O junk fuel q tp tps = Ok true ->
  main_verify K O junk prf0 stdin true (fun _ => None) fuel tp tps = Ok r -> r = (0, fp2_text K (p_E0 q) ++ fp2_text K (p_E1 q)).
Proof.
  intros EP EV EM. destruct (main_verify_total K O junk prf0 stdin (fun _ => None) fuel tp tps q rest EP EV) as (c & txt & EM' & _ & HN).
  destruct (HN (fun _ => eq_refl)) as [-> ->]. rewrite EM in EM'. congruence.
Qed.

Section WH.
Variable K : pok.
Notation P := (fpar K).
Variable HG : good P.
Hypothesis HR : rand_ok P.
Hypothesis HS : strat_good P.
Local Notation HW := (FpInst.HW P HG). Local Notation Hp := (FpInst.Hp P HG).
Local Notation GF := (GF P HG). Local Notation el := (el P HG). Local Notation coef := (coef P HG).
Notation OW := (word_ops P). Notation OF := (field_ops P HW Hp).
Local Notation canonical := (canonicalP P HG). Local Notation moved := (movedP P HG).
Local Notation value := (valueP P HG). Local Notation encode := (encodeP P HG).
Local Notation "'ARGS' f" := (f GF (toF P (vunit P), f0) (qsqrt P HW Hp) (qlt P HW Hp) (qenc P HW Hp) (dec_val P HW Hp) (qrand P HW Hp)) (at level 10, only parsing).
Variable SS : GF -> Prop.
Hypothesis HSS : isog_class SS.
Hypothesis small : exps32 P.
Hypothesis cert : forall A : GF, kmul A A <> 4%F -> certified P A -> SS A.
Local Notation junkF := (@mkPt OF (k0 : GF) (k0 : GF)).

Lemma p_big : 3 < par_p P.
Proof.
  pose proof (wf_shape P HW) as E. pose proof (wf_e2 P HW) as H2. pose proof (wf_e3 P HW) as H3.
  assert (4 <= 2 ^ Z.of_nat (e2 P)). { change 4 with (2 ^ 2). apply Z.pow_le_mono_r; lia. }
  assert (3 <= 3 ^ Z.of_nat (e3 P)). { change 3 with (3 ^ 1) at 1. apply Z.pow_le_mono_r; lia. }
  revert E H H0. generalize (par_p P) (2 ^ Z.of_nat (e2 P)) (3 ^ Z.of_nat (e3 P)). clear. intros p a b E H1 H2. nia.
Qed.
Lemma three_nz : (kadd k1 (kadd k1 k1) : GF) <> k0.
Proof.
  intros E. apply (f_equal fst) in E. apply (f_equal fval) in E. pose proof p_big as B.
  revert E. cbn. rewrite !(Z.mod_small 1) by lia. rewrite (Z.mod_small (1 + 1)) by lia. rewrite Z.mod_small by lia. discriminate.
Qed.
Lemma unit_nz : ((toF P (vunit P), f0) : GF) <> k0.
Proof.
  intros E. apply (f_equal fst) in E. cbn [fst] in E. pose proof (toF_R P HW Hp (vunit P)) as X.
  destruct (ok_unit P HW) as [_ V]. rewrite V in X. pose proof p_big as B.
  assert (Y : toF P (vunit P) = f0) by exact E. rewrite Y in X. change f0 with (mkF (par_p P) 0) in X. rewrite <- mkF_mul in X. apply mkF_eq in X.
  rewrite Z.mul_0_l, Z.mod_0_l, Z.mod_small in X by lia. discriminate.
Qed.
Lemma rand_rest tp (x : GF) tp' : qrand P HW Hp tp = Ok (x, tp') -> rest_of tp' tp.
Proof.
  unfold qrand. cbv zeta. destruct (_ <? _)%nat; [discriminate|]. intros E. apply ok_snd in E. subst tp'.
  exists (firstn (2 * felm_bytes P) tp). symmetry. apply firstn_skipn.
Qed.
Lemma enc_shape (x : GF) : length (qenc P HW Hp x) = sidh_bytes K. Proof. exact (proj2 (enc_elem_ok P HG x)). Qed.
Lemma enc_digs (x : GF) : digits 256 (qenc P HW Hp x). Proof. exact (proj1 (enc_elem_ok P HG x)). Qed.

Lemma gen_word junk a tp0 sec t0 : elem_ok P a -> Generate K OW junk a tp0 = Ok (Some sec, t0) ->
  Generate K OF junkF a tp0 = Ok (Some sec, t0) /\ Forall (elem_ok P) (sE sec) /\ Forall (elem_ok P) (sP sec) /\
  SS (value a) /\ exists A1, ARGS HonestP.secret_rel K sec (value a) A1.
Proof.
  intros Ha H. rewrite (Generate_word K HG HR junk junkF a tp0 Ha) in H. split; [exact H|].
  destruct (Generate_enc _ _ _ _ _ _ _ H) as [H1 H2].
  assert (HE : forall b : list Z, (exists x, b = o_enc OF x) -> elem_ok P b) by (intros b (x & ->); exact (enc_elem_ok P HG x)).
  split; [eapply Forall_impl; [exact HE|exact H1]|]. split; [eapply Forall_impl; [exact HE|exact H2]|].
  exact (ARGS HonestP.Generate_ok (two_nz P HG) unit_nz (sqrt_GF P HG) (lt_GF_irr P HG) (lt_GF_trans P HG) (lt_GF_total P HG) SS HSS K HS (dec_enc P HG)
    enc_shape enc_digs rand_rest junkF (accept_field K HG SS small cert) a tp0 sec t0 H).
Qed.
Local Notation HAll f := (ARGS f (two_nz P HG) three_nz (sqrt_GF P HG) (lt_GF_irr P HG) (lt_GF_trans P HG) (lt_GF_total P HG) SS HSS K HS (dec_enc P HG)) (only parsing).
Lemma sec_long sec A0 A1 : ARGS HonestP.secret_rel K sec A0 A1 -> (width K < length (sE sec))%nat.
Proof. intros H. destruct (ARGS HonestP.secret_ends K sec A0 A1 H) as (_ & _ & ->). apply Nat.lt_succ_diag_r. Qed.
Lemma sec_bytes sec : Forall (elem_ok P) (sE sec) -> Forall (elem_ok P) (sP sec) -> secret_ok OW OF (word_sim P HW Hp) sec.
Proof. intros H1 H2. split; (eapply Forall_impl; [|eassumption]; exact (elem_bytes K HG)). Qed.

(** *** The shape of honest proofs *)
Lemma Prove_word_shape junk a tp0 sec t0 fuel olds tps tps2 prf : elem_ok P a ->
  Generate K OW junk a tp0 = Ok (Some sec, t0) -> Prove K OW fuel sec olds tps tps2 = Ok prf ->
  (forall i, digits 256 (tps i)) -> (forall i, digits 256 (tps2 i)) -> (forall i, length (olds i) = union_size K /\ digits 256 (olds i)) ->
  wf_proof K prf /\ legal_tags prf /\
  p_E0 prf = encode (fst (fst (canonical (value a)))) /\
  p_E1 prf = encode (fst (fst (canonical (value (nth (width K) (sE sec) []))))) /\
  SS (value a) /\ SS (value (nth (width K) (sE sec) [])).
Proof.
  intros Ha EG EP D1 D2 HO. destruct (gen_word junk a tp0 sec t0 Ha EG) as (_ & HE & HP & HA & A1 & Hs).
  rewrite (Prove_word K HG HR fuel sec olds tps tps2 HE HP (sec_long _ _ _ Hs)) in EP.
  destruct (ARGS HonestP.secret_ends K sec (value a) A1 Hs) as (_ & E1 & _).
  pose proof (ARGS HonestP.secret_ss (two_nz P HG) (sqrt_GF P HG) SS HSS K HS sec (value a) A1 Hs HA) as HA1.
  destruct (HAll HonestP.Prove_ok enc_shape enc_digs (w2 P HW) (wf_radix8 P HW) rand_rest junkF (accept_field K HG SS small cert) fuel sec (value a) A1 olds tps tps2 prf
    Hs HA D1 D2 EP) as (P0 & P1 & _ & LT & W & _).
  split; [exact (W HO)|]. split; [exact LT|]. split; [exact P0|]. split; [|split; [exact HA|]].
  - rewrite P1. f_equal. f_equal. f_equal. f_equal. symmetry. exact E1.
  - cbv beta. pose proof (eq_ind_r SS HA1 E1) as X. exact X.
Qed.
(** *** The commuting square *)
(** The chain in memory holds these curves and points. *)
Definition holds (c : chain OW) (l : list (GF * xl GF)) : Prop :=
  Forall2 (fun e x => nons P HG (fst e) /\ coef (fst e) = fst x /\ repx P HG (snd e) (snd x)) (combine (chE _ c) (chP _ c)) l.
Lemma relC_word (E : curve OW) (E' : curve OF) A : crel OW OF (S0 P HG) E E' -> ARGS relC E' A -> SS A -> nons P HG E /\ coef E = A.
Proof. intros H [H1 H2] HA. exact (nons_of K HG SS HSS E E' A H HA H1 H2). Qed.
Lemma holds_of (c : chain OW) (c' : chain OF) l : chrel OW OF (S0 P HG) c c' -> Forall2 (ARGS HonestP.relP) (pairs OF c') l -> Forall (fun x => SS (fst x)) l -> holds c l.
Proof.
  intros [H1 H2] HF HA. unfold holds. unfold pairs in HF. revert H1 H2 HF HA. generalize (chE _ c) (chP _ c) (chE _ c') (chP _ c'). clear c c'. intros Es Ps Es' Ps' H1. revert Ps Ps' l.
  induction H1 as [|E E' Es Es' HE H1 IH]; intros Ps Ps' l H2 HF HA; [inversion HF; constructor|].
  destruct H2 as [|Q Q' Ps Ps' HQ H2]; [inversion HF; constructor|]. cbn [combine] in *. inversion HF as [|e x es l' [HE1 HQ1] HF' X1 X2]; subst e es l. cbn [fst snd] in *.
  inversion HA as [|x0 l0 HA1 HA2]; subst x0 l0. constructor; [|exact (IH _ _ _ H2 HF' HA2)]. cbn [fst snd].
  destruct (relC_word E E' (fst x) HE HE1 HA1) as [N1 N2]. split; [exact N1|]. split; [exact N2|].
  apply psrel_el in HQ as [HQ2 HQ3]. split; [exact HQ2|]. subst Q'. exact HQ1.
Qed.
Lemma Instance_word junk a tp0 sec t0 tp v c t : elem_ok P a ->
  Generate K OW junk a tp0 = Ok (Some sec, t0) -> digits 256 tp -> Instance K OW sec tp = Ok (v, c, t) ->
  let A0 := value a in let A1 := value (nth (width K) (sE sec) []) in
  let A2 := coef (i_E2 _ v) in let A3 := coef (i_E3 _ v) in
  SS A0 /\ SS A1 /\ SS A2 /\ SS A3 /\
  (exists top, path2 moved (e2 P) A0 None top A1 /\ length top = width K) /\
  (exists lft, path3 (e3 P) A0 None lft A2 /\ length lft = height K /\ holds (i_left _ v) lft) /\
  (exists bot, path2 moved (e2 P) A2 None bot A3 /\ length bot = width K /\ holds (i_bottom _ v) bot) /\
  (exists rgt, path3 (e3 P) A1 None rgt A3 /\ length rgt = height K /\ holds (i_right _ v) rgt) /\
  length (i_r2 _ v) = hide_bytes K /\ length (i_r3 _ v) = hide_bytes K /\
  c = (commit encode K (i_r2 _ v) A2, commit encode K (i_r3 _ v) A3).
Proof.
  intros Ha EG D EI. cbv zeta. destruct (gen_word junk a tp0 sec t0 Ha EG) as (_ & HE & HP & HA & A1 & Hs).
  pose proof (Instance_sim K _ _ (word_sim P HW Hp) (word_rand P HW Hp HR) sec tp (sec_bytes sec HE HP)) as Sim. rewrite EI in Sim.
  inversion Sim as [x y HI X1 X2| | | |]. subst x. destruct y as [[v' c'] t']. destruct HI as (HI & Ec & Et). cbn [fst snd] in HI, Ec, Et. subst c' t'. symmetry in X2. clear Sim.
  destruct HI as (R2 & R3 & C2 & C3 & HL & HB & HRr).
  pose proof (ARGS HonestP.secret_ss (two_nz P HG) (sqrt_GF P HG) SS HSS K HS sec (value a) A1 Hs HA) as HA1.
  destruct (ARGS HonestP.secret_ends K sec (value a) A1 Hs) as (_ & E1 & _).
  destruct (HAll HonestP.Instance_full enc_shape enc_digs rand_rest junkF (accept_field K HG SS small cert) sec (value a) A1 tp v' c t Hs HA D X2)
    as (A2 & A3 & lft & bot & lr & fb & Hok & HA2 & HA3 & L2 & L3 & _ & _ & HC).
  destruct Hok as [K1 K2 K3 K4 K5 K6 K7 K8 K9 K10 K11 K12 K13 _ _].
  destruct (relC_word _ _ A2 C2 K10 HA2) as [_ W2]. destruct (relC_word _ _ A3 C3 K11 HA3) as [_ W3]. rewrite W2, W3.
  change (valueP P HG) with (dec_val P HW Hp) in *. rewrite E1.
  pose proof (wf_e3 P HW) as He3.
  destruct Hs as (top & ft & Htop & Ltop & _ & _).
  split; [exact HA|]. split; [exact HA1|]. split; [exact HA2|]. split; [exact HA3|]. split; [|split; [|split; [|split]]].
  - exists top. split; [exact (raw2_path GF moved (e2 P) false _ _ _ _ Htop)|exact Ltop].
  - exists lft. split; [exact (raw3_path GF (e3 P) He3 _ _ _ _ K1)|]. split; [exact K2|]. apply (holds_of _ _ _ HL K7).
    exact (proj2 (raw3_ss GF (two_nz P HG) SS HSS (e3 P) None _ lft A2 K1 HA)).
  - exists bot. split; [exact (raw2_path GF moved (e2 P) false _ _ _ _ K3)|]. split; [exact K4|]. apply (holds_of _ _ _ HB K8).
    refine (raw2_SS GF (two_nz P HG) SS HSS moved _ _ (e2 P) (wf_e2 P HW) false A2 bot A3 fb K3 HA2); intros A HA'; pose proof (moved_ok K HG A (ss_full4 HSS A HA')) as [M1 M2];
      [destruct (moved A) as [[B r] u]; exact M1|exact M2].
  - exists lr. split; [exact (raw3_path GF (e3 P) He3 _ _ _ _ K5)|]. split; [exact K6|]. apply (holds_of _ _ _ HRr K9).
    exact (proj2 (raw3_ss GF (two_nz P HG) SS HSS (e3 P) None _ lr A3 K5 HA1)).
  - rewrite R2, R3. auto.
Qed.

(** *** Honest proofs are accepted *)
Definition plain (c : chain OW) : Prop :=
  forall i E, (0 < i)%nat -> (S i < length (chE _ c))%nat -> nth_error (chE _ c) i = Some E -> ~ special_j (coef E).
Lemma plain_generic (c : chain OW) (c' : chain OF) : chrel OW OF (S0 P HG) c c' -> plain c -> ARGS HonestP.generic c'.
Proof.
  intros [H _] Hp. unfold HonestP.generic, HonestP.interior.
  assert (HF : Forall (fun E => ~ special_j (coef E)) (removelast (tl (chE _ c)))).
  { apply Forall_forall. intros E HE. apply inner_nth in HE as (i & H1 & H2 & H3). exact (Hp i E H1 H2 H3). }
  apply F2_tl, F2_removelast in H. match goal with |- Forall ?Q _ => change (Forall Q (removelast (tl (chE OF c')))) end. revert HF H.
  generalize (removelast (tl (chE OF c'))) (removelast (tl (chE OW c))). intros m m' HF H. revert HF. induction H as [|E E' l l' HE H IH]; intros HF; [constructor|]. inversion HF; subst. constructor; [|auto].
  apply crel_cel in HE as [_ <-]. assumption.
Qed.
Lemma honest_word junk a tp0 sec t0 fuel olds tps tps2 prf fuel' tp tps3 b : elem_ok P a ->
  (forall (A : GF) M, SS A -> on A k1 M -> pmul A k1 (Z.to_nat (par_p P + 1)) M = Inf) ->
  Generate K OW junk a tp0 = Ok (Some sec, t0) -> Prove K OW fuel sec olds tps tps2 = Ok prf ->
  (forall i, digits 256 (tps i)) -> (forall i, digits 256 (tps2 i)) -> (forall i, length (olds i) = union_size K /\ digits 256 (olds i)) ->
  (forall i v c t, (i < reps K)%nat -> Instance K OW sec (tps i) = Ok (v, c, t) -> plain (i_left _ v) /\ plain (i_right _ v)) ->
  Verify K OW junk fuel' prf tp tps3 = Ok b -> b = true.
Proof.
  intros Ha Hkill EG EP D1 D2 HO Hpl EV. pose proof (Prove_word_shape junk a tp0 sec t0 fuel olds tps tps2 prf Ha EG EP D1 D2 HO) as (Hwf & _).
  destruct (gen_word junk a tp0 sec t0 Ha EG) as (EG' & HE & HP & HA & A1 & Hs).
  rewrite (Prove_word K HG HR fuel sec olds tps tps2 HE HP (sec_long _ _ _ Hs)) in EP.
  rewrite (Verify_word K HG HR junk junkF fuel' prf tp tps3 Hwf) in EV.
  assert (Hk : forall (A : GF) M, SS A -> on A k1 M -> pmul A k1 (2 ^ e2 P * 3 ^ e3 P) M = Inf).
  { intros A M HA' HM. specialize (Hkill A M HA' HM). rewrite (shape1 P HG) in Hkill.
    replace (Z.to_nat (2 ^ Z.of_nat (e2 P) * 3 ^ Z.of_nat (e3 P))) with (2 ^ e2 P * 3 ^ e3 P)%nat in Hkill; [exact Hkill|].
    clear. apply Nat2Z.inj. rewrite Z2Nat.id, Nat2Z.inj_mul, !Nat2Z.inj_pow; auto. apply Z.mul_nonneg_nonneg; apply Z.pow_nonneg; lia. }
  assert (Hgen : ARGS HonestP.all_generic K sec tps).
  { intros i v' c t Hi EI'. pose proof (Instance_sim K _ _ (word_sim P HW Hp) (word_rand P HW Hp HR) sec (tps i) (sec_bytes sec HE HP)) as Sim.
    change (Instance K OF sec (tps i) = Ok (v', c, t)) in EI'. rewrite EI' in Sim. inversion Sim as [x y HI X1 X2| | | |]. subst y. destruct x as [[v c'] t']. destruct HI as (HI & _). cbn [fst snd] in HI.
    symmetry in X1. destruct (Hpl i v c' t' Hi X1) as [Pl Pr]. destruct HI as (_ & _ & _ & _ & HL & _ & HRr). split; eapply plain_generic; eauto. }
  exact (ARGS HonestP.honest_accepted (two_nz P HG) three_nz unit_nz (sqrt_GF P HG) (lt_GF_irr P HG) (lt_GF_trans P HG) (lt_GF_total P HG) SS HSS K HS (dec_enc P HG)
    enc_shape enc_digs (w2 P HW) (wf_radix8 P HW) rand_rest junkF (accept_field K HG SS small cert) Hk (enc_inj P HG) a tp0 sec t0 fuel olds tps tps2 prf fuel' tp tps3 b EG' EP D1 D2 Hgen EV).
Qed.
(** *** The command line tools *)
Lemma read_start_ok args stdin E0 : read_start K args stdin = Ok (Some E0) -> elem_ok P E0.
Proof.
  assert (HP : forall x, (do r <- Parse_Fp2 K stdin;; Ok (option_map fst r)) = Ok (Some x) -> elem_ok P x).
  { intros x. destruct (Parse_Fp2 K stdin) as [[[v rest]|]| | | |] eqn:E; cbn [bind option_map fst]; try discriminate. intros [= <-].
    apply Parse_Fp2_gram in E as (ts & w & [[L D] _] & _). split; auto. }
  unfold read_start. destruct args as [|b l]; [apply HP|]. destruct (list_eq_dec Z.eq_dec b initial_arg); [|apply HP].
  intros [= <-]. split; [|apply repeat_length]. apply Forall_forall. intros x Hx. apply repeat_spec in Hx. subst x. lia.
Qed.
Lemma honest_end_word junk a tp0 sec t0 fuel olds tps tps2 prf : elem_ok P a ->
  Generate K OW junk a tp0 = Ok (Some sec, t0) -> Prove K OW fuel sec olds tps tps2 = Ok prf ->
  pack_curve OW (unpack_curve OW (p_E1 prf)) = Ok (p_E1 prf).
Proof.
  intros Ha EG EP. destruct (gen_word junk a tp0 sec t0 Ha EG) as (_ & HE & _ & HA & A1 & Hs).
  destruct (ARGS HonestP.secret_ends K sec (value a) A1 Hs) as (_ & E1 & L).
  pose proof (ARGS HonestP.secret_ss (two_nz P HG) (sqrt_GF P HG) SS HSS K HS sec (value a) A1 Hs HA) as HA1.
  apply (honest_end K HG fuel sec olds tps tps2 prf EP).
  - rewrite Forall_forall in HE. apply HE, nth_In. rewrite L. apply Nat.lt_succ_diag_r.
  - rewrite <- E1 in HA1. exact (ss_full4 HSS _ HA1).
Qed.
Lemma pipeline junk junk' args stdin fuel tp0 olds tps tps2 text : (0 < hide_bytes K)%nat -> (0 < hash_bytes K)%nat ->
  (forall (A : GF) M, SS A -> on A k1 M -> pmul A k1 (Z.to_nat (par_p P + 1)) M = Inf) ->
  main_prove K OW junk args stdin true (fun _ => None) fuel tp0 olds tps tps2 = Ok (0, text) ->
  (forall i, digits 256 (tps i)) -> (forall i, digits 256 (tps2 i)) -> (forall i, length (olds i) = union_size K /\ digits 256 (olds i)) ->
  (forall a sec t0 i v c t, read_start K args stdin = Ok (Some a) -> Generate K OW junk a tp0 = Ok (Some sec, t0) -> (i < reps K)%nat ->
     Instance K OW sec (tps i) = Ok (v, c, t) -> plain (i_left _ v) /\ plain (i_right _ v)) ->
  exists a A1, read_start K args stdin = Ok (Some a) /\ SS (value a) /\ SS A1 /\
  (exists top, path2 moved (e2 P) (value a) None top A1 /\ length top = width K) /\
  let e0 := encode (fst (fst (canonical (value a)))) in let e1 := encode (fst (fst (canonical A1))) in
  (exists rest, text = fp2_text K e0 ++ fp2_text K e1 ++ rest) /\
  forall prf0 suffix fuel' tp tps3 r, wf_proof K prf0 ->
  main_verify K OW junk' prf0 (text ++ suffix) true (fun _ => None) fuel' tp tps3 = Ok r -> r = (0, fp2_text K e0 ++ fp2_text K e1).
Proof.
  intros H1 H2 Hkill HM D1 D2 HO Hpl. apply main_prove_spec in HM. destruct HM as [(X & _)|(a & ER & HM)]; [discriminate|].
  destruct HM as [(X & _)|(sec & t0 & EG & HM)]; [discriminate|]. destruct HM as [(X & _)|(_ & prf & EP & LT & _ & HM)]; [discriminate|].
  destruct (HM (fun _ => eq_refl)) as [_ ->]. pose proof (read_start_ok _ _ _ ER) as Ha.
  pose proof (Prove_word_shape junk a tp0 sec t0 fuel olds tps tps2 prf Ha EG EP D1 D2 HO) as (Hwf & _ & P0 & P1 & HA & HA1).
  exists a, (value (nth (width K) (sE sec) [])). split; [exact ER|]. split; [exact HA|]. split; [exact HA1|]. split.
  { destruct (gen_word junk a tp0 sec t0 Ha EG) as (_ & _ & _ & _ & A1 & Hs). destruct (ARGS HonestP.secret_ends K sec (value a) A1 Hs) as (_ & E1 & _).
    destruct Hs as (top & ft & Htop & Ltop & _ & _). exists top. split; [|exact Ltop]. change (valueP P HG) with (dec_val P HW Hp) in *. rewrite E1. exact (raw2_path GF moved (e2 P) false _ _ _ _ Htop). }
  cbv zeta. rewrite <- P0, <- P1. split; [eexists; reflexivity|].
  intros prf0 suffix fuel' tp tps3 r W0 EV.
  destruct (read_back K HG HR prf prf0 suffix junk' junk' fuel' tp tps3 H1 H2 Hwf LT W0) as (q & EPq & Q0 & Q1 & EQ).
  destruct (main_verify_run K OW junk' prf0 _ _ fuel' tp tps3 q _ r EPq EV) as (b & EB).
  assert (EGj : Generate K OW junk' a tp0 = Ok (Some sec, t0)).
  { rewrite (Generate_word K HG HR junk' junkF a tp0 Ha). rewrite <- EG. symmetry. exact (Generate_word K HG HR junk junkF a tp0 Ha). }
  assert (b = true) as ->.
  { apply (honest_word junk' a tp0 sec t0 fuel olds tps tps2 prf fuel' tp tps3 b Ha Hkill EGj EP D1 D2 HO); [|exact (eq_trans (eq_sym EQ) EB)].
    intros i v c t. exact (Hpl a sec t0 i v c t ER EG). }
  pose proof (main_verify_good K OW junk' prf0 _ fuel' tp tps3 q _ r EPq EB EV) as X. rewrite Q0, Q1 in X. exact X.
Qed.
End WH.
