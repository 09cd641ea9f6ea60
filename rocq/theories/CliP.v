(** Proofs about the command line tools. *)
From Coq Require Import Znumtheory.
From Verif Require Import Base BaseP Digits DigitsP Out Params Fp Wf Poik Hashing Codec CodecSpec CodecP ParseP CodecThm CodecMore Fld FpRep FpMisc FpMiscP FpInst
  Ops Ec Models Proto Sim ModelsSim ProtoSim WordOps FieldOps WordSim CurveSpec ModelSpec WordCurve WordModels ProtoSpec VerifyP Cli.
Set Bullet Behavior "Strict Subproofs".

Section Cli.
Variable K : pok.
Variable O : fops.
Variable junk : pt O.
Lemma Pack_tag w v c old tp r t : Pack_Response K O w v c old tp = Ok (r, t) -> legal_tag (r_tag r).
Proof.
  unfold Pack_Response. destruct (Z.eqb_spec w RESP_LEFT) as [->|]; [|destruct (Z.eqb_spec w RESP_BOTTOM) as [->|]; [|destruct (Z.eqb_spec w RESP_RIGHT) as [->|]; [|discriminate]]].
  - destruct (Pack_Chain_B _ _) as [xs| | | |]; cbn [bind]; try discriminate. intros [= <- _]. left. reflexivity.
  - destruct (pack_curve _ _) as [a| | | |]; cbn [bind]; try discriminate.
    destruct (Pack_Chain_A _ _ _ _) as [[xs t']| | | |]; cbn [bind]; try discriminate. intros [= <- _]. right; left. reflexivity.
  - destruct (Pack_Chain_B _ _) as [xs| | | |]; cbn [bind]; try discriminate. intros [= <- _]. right; right. reflexivity.
Qed.
Lemma pack_tags l olds tps : forall i rs, pack_responses K O l olds tps i = Ok rs -> Forall (fun r => legal_tag (r_tag r)) rs.
Proof.
  induction l as [|[w [v c]] l IH]; intros i rs; cbn [pack_responses]; [intros [= <-]; constructor|].
  destruct (Pack_Response _ _ _ _ _ _ _) as [[r t]| | | |] eqn:E; cbn [bind]; try discriminate.
  destruct (pack_responses _ _ _ _ _ _) as [rs'| | | |] eqn:E2; cbn [bind]; try discriminate.
  intros [= <-]. constructor; [eapply Pack_tag; eauto|eapply IH; eauto].
Qed.
Lemma Prove_tags fuel sec olds tps tps2 p : Prove K O fuel sec olds tps tps2 = Ok p -> legal_tags p.
Proof.
  unfold Prove. cbv zeta. destruct (instances _ _ _ _ _ _) as [l| | | |]; cbn [bind]; try discriminate.
  destruct (Challenge _ _ _ _) as [ch| | | |]; cbn [bind]; try discriminate.
  destruct (pack_curve _ _) as [a| | | |]; cbn [bind]; try discriminate.
  destruct (pack_curve _ _) as [b| | | |]; cbn [bind]; try discriminate.
  destruct (pack_responses _ _ _ _ _ _) as [rs| | | |] eqn:E; cbn [bind]; try discriminate.
  intros [= <-]. exact (pack_tags _ _ _ _ _ E).
Qed.
Lemma oracle_bad (o : oracle) (b : bool) : ((forall i, o i = None) -> b = true) -> b = false -> ~ forall i, o i = None.
Proof. intros H -> H'. discriminate (H H'). Qed.

Definition verify_cases (prf0 : proof) stdin malloc_ok (o : oracle) fuel tp tps (c : Z) (text : list Z) : Prop :=
  (c = 1 /\ malloc_ok = false /\ text = []) \/
  (malloc_ok = true /\
   ((c = -1 /\ Parse K prf0 stdin = Ok None /\ text = []) \/
    exists prf rest, Parse K prf0 stdin = Ok (Some (prf, rest)) /\
    ((c = 2 /\ Verify K O junk fuel prf tp tps = Ok false /\ text = []) \/
     (Verify K O junk fuel prf tp tps = Ok true /\
      ((c = 0 /\ text = fp2_text K (p_E0 prf) ++ fp2_text K (p_E1 prf)) \/
       (c = 3 /\ ~ forall i, o i = None)))))).
Definition vbody (pr : out (option (proof * list Z))) (vf : proof -> out bool) (malloc_ok : bool) (o : oracle) : out (Z * list Z) :=
  if malloc_ok then
    do r <- pr;;
    match r with
    | None => Ok (-1, [])
    | Some (prf, _) =>
        do ok <- vf prf;;
        if ok : bool then
          let (ok, s) := Dump_Fp2 K o (p_E0 prf) (mkStream [] 0) in
          if ok then
            let (ok, s) := Dump_Fp2 K o (p_E1 prf) s in
            Ok (if ok then 0 else 3, s_out s)
          else Ok (3, s_out s)
        else Ok (2, [])
    end
  else Ok (1, []).
Definition vcases (pr : out (option (proof * list Z))) (vf : proof -> out bool) (malloc_ok : bool) (o : oracle) (c : Z) (text : list Z) : Prop :=
  (c = 1 /\ malloc_ok = false /\ text = []) \/
  (malloc_ok = true /\
   ((c = -1 /\ pr = Ok None /\ text = []) \/
    exists prf rest, pr = Ok (Some (prf, rest)) /\
    ((c = 2 /\ vf prf = Ok false /\ text = []) \/
     (vf prf = Ok true /\
      ((c = 0 /\ text = fp2_text K (p_E0 prf) ++ fp2_text K (p_E1 prf)) \/
       (c = 3 /\ ~ forall i, o i = None)))))).
Lemma vbody_spec pr vf malloc_ok o c text : vbody pr vf malloc_ok o = Ok (c, text) -> vcases pr vf malloc_ok o c text.
Proof.
  unfold vbody, vcases. destruct malloc_ok; [|intros [= <- <-]; auto]. intros H. right. split; auto.
  destruct pr as [[[prf rest]|]| | | |]; cbn [bind] in H; try discriminate; [|injection H as <- <-; auto].
  right. exists prf, rest. split; auto.
  destruct (vf prf) as [[|]| | | |] eqn:EV; cbn [bind] in H; try discriminate; [|injection H as <- <-; auto].
  right. split; auto.
  pose proof (Dump_Fp2_writes K (p_E0 prf) o (mkStream [] 0)) as [W1 W2].
  destruct (Dump_Fp2 K o (p_E0 prf) (mkStream [] 0)) as [ok1 s1]. cbn [fst snd] in *.
  destruct ok1; [|injection H as <- <-; right; split; auto; eapply oracle_bad; eauto].
  pose proof (Dump_Fp2_writes K (p_E1 prf) o s1) as [W3 W4].
  destruct (Dump_Fp2 K o (p_E1 prf) s1) as [ok2 s2]. cbn [fst snd] in *. injection H as <- <-.
  destruct ok2; [left; split; auto; rewrite W3, W1 by auto; reflexivity|right; split; auto; eapply oracle_bad; eauto].
Qed.
Lemma main_verify_body prf0 stdin malloc_ok o fuel tp tps :
  main_verify K O junk prf0 stdin malloc_ok o fuel tp tps =
  vbody (Parse K prf0 stdin) (fun prf => Verify K O junk fuel prf tp tps) malloc_ok o.
Proof. reflexivity. Qed.
Lemma main_verify_spec prf0 stdin malloc_ok o fuel tp tps c text :
  main_verify K O junk prf0 stdin malloc_ok o fuel tp tps = Ok (c, text) ->
  verify_cases prf0 stdin malloc_ok o fuel tp tps c text.
Proof. rewrite main_verify_body. apply vbody_spec. Qed.
(** the other way round: each situation gives its return value *)
Lemma vbody_total pr vf o prf rest : pr = Ok (Some (prf, rest)) -> vf prf = Ok true ->
  exists c text, vbody pr vf true o = Ok (c, text) /\ (c = 0 \/ c = 3) /\
    ((forall i, o i = None) -> c = 0 /\ text = fp2_text K (p_E0 prf) ++ fp2_text K (p_E1 prf)).
Proof.
  intros -> EV. unfold vbody. cbn [bind]. rewrite EV. cbn [bind].
  pose proof (Dump_Fp2_writes K (p_E0 prf) o (mkStream [] 0)) as [W1 W2].
  destruct (Dump_Fp2 K o (p_E0 prf) (mkStream [] 0)) as [ok1 s1]. cbn [fst snd] in *.
  destruct ok1; [|do 2 eexists; split; [reflexivity|]; split; auto; intros Ho; discriminate (W2 Ho)].
  pose proof (Dump_Fp2_writes K (p_E1 prf) o s1) as [W3 W4].
  destruct (Dump_Fp2 K o (p_E1 prf) s1) as [ok2 s2]. cbn [fst snd] in *.
  do 2 eexists. split; [reflexivity|]. destruct ok2; split; auto; intros Ho; [|discriminate (W4 Ho)].
  split; auto. rewrite W3, W1 by auto. reflexivity.
Qed.
Lemma main_verify_total prf0 stdin o fuel tp tps prf rest :
  Parse K prf0 stdin = Ok (Some (prf, rest)) -> Verify K O junk fuel prf tp tps = Ok true ->
  exists c text, main_verify K O junk prf0 stdin true o fuel tp tps = Ok (c, text) /\ (c = 0 \/ c = 3) /\
    ((forall i, o i = None) -> c = 0 /\ text = fp2_text K (p_E0 prf) ++ fp2_text K (p_E1 prf)).
Proof. rewrite main_verify_body. apply (vbody_total _ (fun prf => Verify K O junk fuel prf tp tps)). Qed.
(** the first curve may have been printed although the return value is 3 *)
Lemma vbody_one_line pr vf prf rest : pr = Ok (Some (prf, rest)) -> vf prf = Ok true ->
  exists bad, vbody pr vf true (fun i => if (i =? bad)%nat then Some 0%nat else None) = Ok (3, fp2_text K (p_E0 prf)).
Proof.
  intros -> EV. unfold vbody. cbn [bind]. rewrite EV. cbn [bind].
  destruct (runs_fp2 K (p_E0 prf)) as [n Hn]. exists n. rewrite Hn.
  2:{ cbn [s_calls]. intros i Hi. destruct (Nat.eqb_spec i n); [lia|auto]. }
  cbn [s_out s_calls]. unfold Dump_Fp2 at 1. unfold dump_packed_fp at 1. unfold fwrite at 1. cbn [s_calls Nat.add]. rewrite Nat.eqb_refl.
  cbn [firstn]. change (2 =? -1) with false. cbn [negb s_out]. now rewrite app_nil_r.
Qed.
Lemma main_verify_one_line prf0 stdin fuel tp tps prf rest :
  Parse K prf0 stdin = Ok (Some (prf, rest)) -> Verify K O junk fuel prf tp tps = Ok true ->
  exists bad, main_verify K O junk prf0 stdin true (fun i => if (i =? bad)%nat then Some 0%nat else None) fuel tp tps =
    Ok (3, fp2_text K (p_E0 prf)).
Proof. apply (vbody_one_line _ (fun prf => Verify K O junk fuel prf tp tps)). Qed.

Definition prove_cases args stdin malloc_ok (o : oracle) fuel tp olds tps tps2 (c : Z) (text : list Z) : Prop :=
  (c = -1 /\ read_start K args stdin = Ok None /\ text = []) \/
  exists E0, read_start K args stdin = Ok (Some E0) /\
   ((c = 1 /\ text = [] /\ exists t, Generate K O junk E0 tp = Ok (None, t)) \/
    exists sec t, Generate K O junk E0 tp = Ok (Some sec, t) /\
    ((c = 2 /\ malloc_ok = false /\ text = []) \/
     (malloc_ok = true /\ exists prf, Prove K O fuel sec olds tps tps2 = Ok prf /\ legal_tags prf /\
      ((c = 0 /\ exists ls, Forall2 (fun t r => t = tag_text (r_tag r) ++ [10] \/ exists k, t = firstn k (tag_text (r_tag r) ++ [10])) ls (p_resp prf) /\
         text = fp2_text K (p_E0 prf) ++ fp2_text K (p_E1 prf) ++
           concat (map (fun x => fst x ++ response_body K (snd x)) (combine ls (p_resp prf)))) \/
       (c = 3 /\ ~ forall i, o i = None)) /\
      ((forall i, o i = None) -> c = 0 /\ text = proof_text K prf)))).
Definition pbody (rs : out (option (list Z))) (gen : list Z -> out (option secret * tape)) (prv : secret -> out proof) (malloc_ok : bool) (o : oracle)
  : out (Z * list Z) :=
  do E0 <- rs;;
  match E0 with
  | None => Ok (-1, [])
  | Some E0 =>
      do (sec, _) <- gen E0;;
      match sec with
      | None => Ok (1, [])
      | Some sec =>
          if malloc_ok then
            do prf <- prv sec;;
            do (ok, s) <- Dump K o prf (mkStream [] 0);;
            Ok (if ok : bool then 0 else 3, s_out s)
          else Ok (2, [])
      end
  end.
Definition pcases (rs : out (option (list Z))) (gen : list Z -> out (option secret * tape)) (prv : secret -> out proof) (malloc_ok : bool) (o : oracle)
  (c : Z) (text : list Z) : Prop :=
  (c = -1 /\ rs = Ok None /\ text = []) \/
  exists E0, rs = Ok (Some E0) /\
   ((c = 1 /\ text = [] /\ exists t, gen E0 = Ok (None, t)) \/
    exists sec t, gen E0 = Ok (Some sec, t) /\
    ((c = 2 /\ malloc_ok = false /\ text = []) \/
     (malloc_ok = true /\ exists prf, prv sec = Ok prf /\ legal_tags prf /\
      ((c = 0 /\ exists ls, Forall2 (fun t r => t = tag_text (r_tag r) ++ [10] \/ exists k, t = firstn k (tag_text (r_tag r) ++ [10])) ls (p_resp prf) /\
         text = fp2_text K (p_E0 prf) ++ fp2_text K (p_E1 prf) ++
           concat (map (fun x => fst x ++ response_body K (snd x)) (combine ls (p_resp prf)))) \/
       (c = 3 /\ ~ forall i, o i = None)) /\
      ((forall i, o i = None) -> c = 0 /\ text = proof_text K prf)))).
Lemma pbody_spec rs gen prv malloc_ok o c text : (forall s p, prv s = Ok p -> legal_tags p) ->
  pbody rs gen prv malloc_ok o = Ok (c, text) -> pcases rs gen prv malloc_ok o c text.
Proof.
  unfold pbody, pcases. intros HL H.
  destruct rs as [[E0|]| | | |]; cbn [bind] in H; try discriminate; [|injection H as <- <-; auto].
  right. exists E0. split; auto.
  destruct (gen E0) as [[[sec|] t]| | | |]; cbn [bind] in H; try discriminate; [|injection H as <- <-; left; eauto].
  right. exists sec, t. split; auto. destruct malloc_ok; [|injection H as <- <-; auto].
  right. split; auto.
  destruct (prv sec) as [prf| | | |] eqn:EP; cbn [bind] in H; try discriminate.
  exists prf. split; auto. pose proof (HL _ _ EP) as Hl. split; auto.
  destruct (Dump_spec K o prf (mkStream [] 0) Hl) as (ok & s & ED & D1 & D2). rewrite ED in H. cbn [bind] in H. injection H as <- <-.
  split.
  - destruct ok; [left; split; auto|right; split; auto; intros Ho; now destruct (D2 Ho)].
  - intros Ho. destruct (D2 Ho) as [-> D3]. split; auto.
Qed.
Lemma main_prove_body args stdin malloc_ok o fuel tp olds tps tps2 :
  main_prove K O junk args stdin malloc_ok o fuel tp olds tps tps2 =
  pbody (read_start K args stdin) (fun E0 => Generate K O junk E0 tp) (fun sec => Prove K O fuel sec olds tps tps2) malloc_ok o.
Proof. reflexivity. Qed.
Lemma main_prove_spec args stdin malloc_ok o fuel tp olds tps tps2 c text :
  main_prove K O junk args stdin malloc_ok o fuel tp olds tps tps2 = Ok (c, text) ->
  prove_cases args stdin malloc_ok o fuel tp olds tps tps2 c text.
Proof. rewrite main_prove_body. apply pbody_spec. intros s p. apply Prove_tags. Qed.
End Cli.

(** ** Chaining contributions *)
Section Chain0.
Variable K : pok.
Variable O : fops.
Variable junk : pt O.
Lemma chain_A_shape k : forall f E tp Es Ps t, random_chain_A K O k f E tp = Ok (Es, Ps, t) ->
  exists l, Es = E :: l /\ length l = k.
Proof.
  destruct k; intros f E tp Es Ps t; cbn [random_chain_A]; [intros [= <- _ _]; exists []; auto|].
  destruct (Random_Point_AB _ _ _ _ _ _) as [[R t1]| | | |]; cbn [bind]; try discriminate.
  destruct (Isogeny_A _ _ _ _ _) as [[[E' q]|]| | | |]; cbn [bind]; try discriminate.
  destruct (random_chain_A K O k false E' t1) as [[[Es' Ps'] t2]| | | |] eqn:EE; cbn [bind]; try discriminate.
  intros [= <- <- <-]. exists Es'. split; auto.
  revert E' t1 Es' Ps' t2 EE. clear. generalize false. induction k; intros f E' t1 Es' Ps' t2; cbn [random_chain_A]; [intros [= <- _ _]; auto|].
  destruct (Random_Point_AB _ _ _ _ _ _) as [[R t']| | | |]; cbn [bind]; try discriminate.
  destruct (Isogeny_A _ _ _ _ _) as [[[E'' q]|]| | | |]; cbn [bind]; try discriminate.
  destruct (random_chain_A K O k false E'' t') as [[[Es'' Ps''] t'']| | | |] eqn:EE; cbn [bind]; try discriminate.
  intros [= <- <- <-]. cbn [length]. f_equal. eapply IHk; eauto.
Qed.
Lemma Generate_shape a tp sec t : Generate K O junk a tp = Ok (Some sec, t) ->
  exists l, sE sec = fp2div_enc O (o_dec O a) (o_one O) :: l /\ length l = width K.
Proof.
  unfold Generate. destruct (check_packed _ _ _ _ _) as [[[|] t1]| | | |]; cbn [bind]; try discriminate.
  unfold Random_Isogeny_Chain_A.
  destruct (random_chain_A _ _ _ _ _ _) as [[[Es Ps] t2]| | | |] eqn:E; cbn [bind]; try discriminate.
  intros [= <- <-]. cbn [sE chE]. destruct (chain_A_shape _ _ _ _ _ _ _ E) as (l & -> & L). cbn [map unpack_curve cA cC].
  eexists. split; [reflexivity|]. now rewrite map_length.
Qed.
Lemma Prove_ends fuel sec olds tps tps2 p : Prove K O fuel sec olds tps tps2 = Ok p ->
  pack_curve O (unpack_curve O (nth 0 (sE sec) [])) = Ok (p_E0 p) /\
  pack_curve O (unpack_curve O (nth (width K) (sE sec) [])) = Ok (p_E1 p).
Proof.
  unfold Prove. cbv zeta. destruct (instances _ _ _ _ _ _) as [l| | | |]; cbn [bind]; try discriminate.
  destruct (Challenge _ _ _ _) as [ch| | | |]; cbn [bind]; try discriminate.
  destruct (pack_curve O (unpack_curve O (nth 0 (sE sec) []))) as [a| | | |]; cbn [bind]; try discriminate.
  destruct (pack_curve O (unpack_curve O (nth (width K) (sE sec) []))) as [b| | | |]; cbn [bind]; try discriminate.
  destruct (pack_responses _ _ _ _ _ _) as [rs| | | |]; cbn [bind]; try discriminate.
  intros [= <-]. auto.
Qed.
End Chain0.

Section ChainUp.
Variable K : pok.
Notation P := (fpar K).
Variable HG : good P.
Notation HW := (FpInst.HW P HG). Notation Hp := (FpInst.Hp P HG).
Notation OW := (word_ops P). Notation OF := (field_ops P HW Hp).
Variable junk : pt OW.
Lemma pack_dec b c : elem_ok P b -> elem_ok P c -> dec_val P HW Hp b = dec_val P HW Hp c ->
  pack_curve OW (unpack_curve OW b) = pack_curve OW (unpack_curve OW c).
Proof.
  intros Hb Hc E. pose proof (unpack_curve_sim OW OF (word_sim P HW Hp)) as U.
  rewrite (out_rel_eq _ _ (pack_curve_sim OW OF (word_sim P HW Hp) _ _ (U b Hb))).
  rewrite (out_rel_eq _ _ (pack_curve_sim OW OF (word_sim P HW Hp) _ _ (U c Hc))).
  unfold unpack_curve. cbn [field_ops fld_ops o_dec]. now rewrite E.
Qed.
Lemma pack_canon b c : elem_ok P b -> pack_curve OW (unpack_curve OW b) = Ok c -> exists B, c = qenc P HW Hp B.
Proof.
  intros Hb. pose proof (unpack_curve_sim OW OF (word_sim P HW Hp)) as U.
  rewrite (out_rel_eq _ _ (pack_curve_sim OW OF (word_sim P HW Hp) _ _ (U b Hb))).
  unfold pack_curve. destruct (canonical_model OF _) as [i| | | |]; cbn [bind]; try discriminate.
  intros [= <-]. now exists (iB i).
Qed.
Lemma start_enc a : elem_ok P a -> fp2div_enc OW (o_dec OW a) (o_one OW) = qenc P HW Hp (dec_val P HW Hp a).
Proof.
  intros Ha. rewrite (fp2div_enc_sim OW OF (word_sim P HW Hp) _ _ (o_dec OF a) (o_one OF)).
  - unfold fp2div_enc, fp2div. cbn [field_ops fld_ops o_enc o_inv o_mul o_dec o_one]. f_equal.
    set (x := dec_val P HW Hp a : GF P HG). pose proof (kth (GF P HG)) as th.
    assert (E1 : kinv (k1 : GF P HG) = k1).
    { transitivity (kmul (kinv (k1 : GF P HG)) k1); [|apply (Field_theory.Finv_l th), (Field_theory.F_1_neq_0 th)].
      pose proof (Field_theory.F_R th) as R. rewrite (Ring_theory.Rmul_comm R). symmetry. apply (Ring_theory.Rmul_1_l R). }
    pose proof (Field_theory.F_R th) as R.
    first [ change (kmul x (kinv k1) = x); rewrite E1, (Ring_theory.Rmul_comm R); apply (Ring_theory.Rmul_1_l R)
          | change (kmul (kinv k1) x = x); rewrite E1; apply (Ring_theory.Rmul_1_l R) ].
  - apply s_rel, s_dec. exact Ha.
  - apply s_rel, s_one.
Qed.
(** The first curve of a new proof is the packed start curve. *)
Lemma start_curve v tp sec t fuel olds tps tps2 prf : elem_ok P v ->
  Generate K OW junk v tp = Ok (Some sec, t) -> Prove K OW fuel sec olds tps tps2 = Ok prf ->
  pack_curve OW (unpack_curve OW v) = Ok (p_E0 prf).
Proof.
  intros Hv HGn HP. destruct (Generate_shape _ _ _ _ _ _ _ HGn) as (l & Es & _).
  destruct (Prove_ends _ _ _ _ _ _ _ _ HP) as [H0 _]. rewrite Es in H0. cbn [nth] in H0. rewrite start_enc in H0 by auto.
  rewrite <- H0. apply pack_dec; auto; [apply enc_elem_ok|]. symmetry. apply (dec_enc P HG).
Qed.
End ChainUp.

Section Chain44.
Variable K : pok.
Notation P := (fpar K).
Variable HG : good P.
Notation HW := (FpInst.HW P HG). Notation Hp := (FpInst.Hp P HG).
Notation OW := (word_ops P).
Hypothesis Hhide : (0 < hide_bytes K)%nat.
Hypothesis Hhash : (0 < hash_bytes K)%nat.
Lemma parse_line v suffix : elem_ok P v -> Parse_Fp2 K (fp2_text K v ++ suffix) = Ok (Some (v, 10 :: suffix)).
Proof. intros [D L]. rewrite fp2_text_line, <- app_assoc. apply Parse_Fp2_reads. split; auto. Qed.
Lemma Parse_first prf0 v rest prf r : elem_ok P v -> Parse K prf0 (fp2_text K v ++ rest) = Ok (Some (prf, r)) -> p_E0 prf = v.
Proof.
  intros Hv. unfold Parse, pbind. rewrite (parse_line v rest Hv). cbn [bind].
  destruct (Parse_Fp2 K (10 :: rest)) as [[[e1 f]|]| | | |]; cbn [bind]; try discriminate.
  destruct (parse_responses K (p_resp prf0) f) as [[[rs f']|]| | | |]; cbn [bind]; try discriminate.
  intros [= <- _]. reflexivity.
Qed.
Lemma chain_up junk junk2 prf0 stdin m o fuel tp tps out1 : wf_proof K prf0 ->
  main_verify K OW junk prf0 stdin m o fuel tp tps = Ok (0, out1) ->
  exists e0 e1, out1 = fp2_text K e0 ++ fp2_text K e1 /\ elem_ok P e1 /\
  forall suffix m' fuel' tp' olds tps' tps2 text2,
  main_prove K OW junk2 [] (fp2_text K e1 ++ suffix) m' (fun _ => None) fuel' tp' olds tps' tps2 = Ok (0, text2) ->
  exists b, pack_curve OW (unpack_curve OW e1) = Ok b /\ elem_ok P b /\ (exists rest, text2 = fp2_text K b ++ rest) /\
  forall junk3 prf2 s2 m2 o2 fuel2 tp2 tps3 out2,
  main_verify K OW junk3 prf2 (text2 ++ s2) m2 o2 fuel2 tp2 tps3 = Ok (0, out2) -> exists rest, out2 = fp2_text K b ++ rest.
Proof.
  intros Hw HV. apply main_verify_spec in HV. unfold verify_cases in HV.
  destruct HV as [(E & _)|(_ & [(E & _)|(prf & rest & EP & [(E & _)|(EV & [(_ & ET)|(E & _)])])])]; try discriminate E.
  exists (p_E0 prf), (p_E1 prf). split; [exact ET|].
  destruct (parse_wellformed K prf0 stdin prf rest Hhide Hhash Hw EP) as ((_ & [L1 D1] & _) & _).
  assert (He : elem_ok P (p_E1 prf)) by (split; auto). split; [exact He|]. clear EV ET EP.
  intros suffix m' fuel' tp' olds tps' tps2 text2 HPr. apply main_prove_spec in HPr. unfold prove_cases in HPr.
  unfold read_start in HPr. rewrite (parse_line _ suffix He) in HPr. cbn [bind option_map fst] in HPr.
  destruct HPr as [(E & _)|(E0 & ER & HPr)]; [discriminate E|]. injection ER as <-.
  destruct HPr as [(E & _)|(sec & t & EG & [(E & _)|(_ & prf' & EPr & _ & _ & HN)])]; try discriminate E.
  destruct (HN (fun _ => eq_refl)) as [_ ET]. clear HN.
  pose proof (start_curve K HG junk2 _ _ _ _ _ _ _ _ _ He EG EPr) as HS.
  exists (p_E0 prf'). split; [exact HS|]. destruct (pack_canon K HG _ _ He HS) as [B EB].
  assert (Hb : elem_ok P (p_E0 prf')) by (rewrite EB; apply enc_elem_ok). split; [exact Hb|].
  assert (HT : exists rest, text2 = fp2_text K (p_E0 prf') ++ rest) by (rewrite ET; eexists; reflexivity).
  split; [exact HT|]. clear EG EPr HS ET. destruct HT as [r2 ->].
  intros junk3 prf2 s2 m2 o2 fuel2 tp2 tps3 out2 HV. apply main_verify_spec in HV. unfold verify_cases in HV.
  destruct HV as [(E & _)|(_ & [(E & _)|(q & rest' & EP & [(E & _)|(EV & [(_ & ET)|(E & _)])])])]; try discriminate E.
  rewrite <- app_assoc in EP. rewrite (Parse_first _ _ _ _ _ Hb EP) in ET. eauto.
Qed.
(** A proof made by Prove has a packed end curve. *)
Lemma honest_end fuel sec olds tps tps2 prf : Prove K OW fuel sec olds tps tps2 = Ok prf ->
  let e := nth (width K) (sE sec) [] in elem_ok P e -> full4 (dec_val P HW Hp e : GF P HG) ->
  pack_curve OW (unpack_curve OW (p_E1 prf)) = Ok (p_E1 prf).
Proof.
  intros HP e He H4. apply Prove_ends in HP as [_ HP]. fold e in HP.
  destruct (unpack_word P HG e He) as (U1 & U2 & U3).
  eapply (pack_idem P HG (unpack_curve OW e)); auto; [|now rewrite U3].
  rewrite U2. apply (Field_theory.F_1_neq_0 (kth (GF P HG))).
Qed.
(** Any accepted proof has a variant whose end curve is not packed. *)
Hypothesis HR : rand_ok P.
Hypothesis room : 2 * par_p P <= 256 ^ Z.of_nat (fp_bytes P).
Lemma unchainable junk fuel prf tp tps : wf_proof K prf -> Verify K OW junk fuel prf tp tps = Ok true ->
  exists prf', wf_proof K prf' /\ equiv_proof K prf prf' /\ Verify K OW junk fuel prf' tp tps = Ok true /\
  pack_curve OW (unpack_curve OW (p_E1 prf')) <> Ok (p_E1 prf').
Proof.
  intros Hw HV. pose proof Hw as (H0 & [L1 D1] & L & HF).
  destruct (other_encoding K HG room _ D1 L1) as (b & Db & Lb & Nb & Sb).
  assert (H1 : elem_ok P (p_E1 prf)) by (split; auto). assert (Hb : elem_ok P b) by (split; auto).
  assert (HD : dec_val P HW Hp (p_E1 prf) = dec_val P HW Hp b) by (apply (same_value_dec K HG), Sb).
  destruct (pack_curve OW (unpack_curve OW (p_E1 prf))) as [c| | | |] eqn:EC;
    try (exists prf; split; [exact Hw|]; split; [split; [|split]; auto using same_value_refl, equiv_responses_refl|]; split; [exact HV|]; rewrite EC; discriminate).
  destruct (list_eq_dec Z.eq_dec c (p_E1 prf)) as [->|N].
  - set (q := mkProof (p_E0 prf) b (p_resp prf)).
    assert (Hwq : wf_proof K q) by (split; [|split; [|split]]; auto).
    assert (Heq : equiv_proof K prf q) by (split; [|split]; cbn [p_E0 p_E1 p_resp q]; auto using same_value_refl, equiv_responses_refl).
    exists q. split; [exact Hwq|]. split; [exact Heq|]. split.
    + rewrite <- HV. symmetry. exact (Verify_equiv K HG HR junk junk fuel prf q tp tps Hw Hwq Heq).
    + cbn [q p_E1]. rewrite <- (pack_dec K HG _ _ H1 Hb HD), EC. intros [= E]. now apply Nb.
  - exists prf. split; [exact Hw|]. split; [split; [|split]; auto using same_value_refl, equiv_responses_refl|]. split; [exact HV|].
    rewrite EC. intros [= E]. auto.
Qed.
End Chain44.
