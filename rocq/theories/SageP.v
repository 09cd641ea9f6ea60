(** Proofs about the Sage verifier: hashing compared with the C code, and the missing length checks. *)
From Verif Require Import Base BaseP Out Params Wf Poik Keccak KeccakSpec SpongeP Hashing HashSpec HashingP ParamP Sage.

Lemma sage_divmods_5 v : sage_divmods 5 v = trits5 v.
Proof.
  cbn [sage_divmods]. unfold trits5, trit. rewrite !Z.div_div by lia. reflexivity.
Qed.
Lemma sage_trits_ok n bytes : forall acc, sage_trits n acc bytes =
  let t := acc ++ trit_stream bytes in if (n <=? length t)%nat then Ok (firstn n t) else NoFuel.
Proof.
  induction bytes as [|v bytes IH]; intros acc; cbn [sage_trits trit_stream flat_map]; cbn zeta.
  - rewrite app_nil_r. destruct (Nat.ltb_spec (length acc) n), (Nat.leb_spec n (length acc)); auto; lia.
  - destruct (Nat.ltb_spec (length acc) n) as [H|H].
    + unfold trits_of. destruct (Z.geb_spec v 243), (Z.ltb_spec v 243); try lia; rewrite IH; cbn zeta.
      * reflexivity.
      * rewrite sage_divmods_5. now rewrite <- app_assoc.
    + destruct (Nat.leb_spec n (length (acc ++ trits_of v ++ flat_map trits_of bytes))) as [X|X]; [|rewrite app_length in X; lia].
      now rewrite firstn_app, (proj2 (Nat.sub_0_le n (length acc))), firstn_O, app_nil_r by lia.
Qed.
Lemma sage_challenge_ok fuel j0 j1 hs : sage_challenge fuel j0 j1 hs =
  let t := trit_stream (shake256 fuel (challenge_input (mkComm j0 j1 hs))) in
  if (length hs <=? length t)%nat then Ok (firstn (length hs) t) else NoFuel.
Proof. unfold sage_challenge. rewrite sage_trits_ok. reflexivity. Qed.

Lemma same_challenge K fuel c buffer r : length buffer = reps K -> digits 256 (challenge_input c) -> length (c_hs c) = reps K ->
  Challenge K fuel c buffer = Ok r <-> sage_challenge (fuel * 136) (c_j0 c) (c_j1 c) (c_hs c) = Ok r.
Proof.
  intros L D H. rewrite (challenge_thm K fuel c buffer r L D), sage_challenge_ok. destruct c as [j0 j1 hs]. cbn [c_hs] in H. cbn [c_j0 c_j1 c_hs]. rewrite H.
  change (challenge_input (mkComm j0 j1 hs)) with (1 :: comm_bytes (mkComm j0 j1 hs)). cbn zeta.
  destruct (Nat.leb_spec (reps K) (length (trit_stream (shake256 (fuel * 136) (1%Z :: comm_bytes (mkComm j0 j1 hs)))))) as [X|X]; split.
  - intros [_ ->]. reflexivity.
  - intros [= <-]. auto.
  - intros [Y _]. lia.
  - discriminate.
Qed.
Lemma same_hash K r v : hash_bytes K = 32%nat -> sage_hash_hiding r v = hash_hiding K r v.
Proof. intros H. unfold hash_hiding. rewrite H. reflexivity. Qed.
Lemma different_hash K r v : digits 256 r -> digits 256 v -> hash_bytes K <> 32%nat -> sage_hash_hiding r v <> hash_hiding K r v.
Proof.
  intros Dr Dv H E. apply (f_equal (@length Z)) in E. revert E. unfold hash_hiding, sage_hash_hiding.
  assert (D : digits 256 ([2] ++ r ++ v)) by (apply Forall_app; split; [repeat constructor; lia|apply Forall_app; auto]).
  unfold hash_hiding_input, RO_COMMIT.
  rewrite (proj1 (proj2 (shake256_ok 32 _ D))), (proj1 (proj2 (shake256_ok (hash_bytes K) _ D))). congruence.
Qed.

(** * A verifier without length checks *)
Section Forge.
Context {C : Type}.
Variable jpack : C -> list Z.
Variable chainA chainB : C -> list C -> option (list Z).
Notation resp := (@sresp C).
Notation unpack := (sage_unpack jpack chainA chainB).
Notation unpack_all := (sage_unpack_all jpack chainA chainB).
Variables (w h : nat) (E0 E1 E2 : C) (cl cr cb : list C) (nonce j2l j3r j3b : list Z).
Hypothesis Hn : nonce <> [].
Hypothesis Hl : chainB E0 cl = Some j2l.  Hypothesis Ll : length cl = h.
Hypothesis Hr : chainB E1 cr = Some j3r.  Hypothesis Lr : length cr = h.
Hypothesis Hb : chainA E2 cb = Some j3b.  Hypothesis Lb : length cb = w.
Let L := sage_hash_hiding nonce j2l.
Let R := sage_hash_hiding nonce j3r.
Let B := sage_hash_hiding nonce (jpack E2) ++ sage_hash_hiding nonce j3b.
Definition rep_bytes (k : nat) (x : list Z) : list Z := concat (repeat x k).
Definition seg (k : nat) : list Z := [0] ++ R ++ rep_bytes k B ++ L ++ [0].
Definition round (reps : nat) : list Z := flat_map seg (seq 0 (S reps)).
Definition transcript (reps : nat) : list Z := rep_bytes reps (round reps).
Definition fits (t : list Z) (s : list Z) : Prop := exists rs hs,
  map sage_tag rs = t /\ Forall (sage_readable w h) rs /\ unpack_all E0 E1 rs = Some hs /\
  flat_map (fun x : list Z * list Z => fst x ++ snd x) hs = s.
Lemma fits_nil : fits [] [].
Proof. exists [], []. repeat split; auto. Qed.
Lemma fits_left t s x : x <> [] -> fits t s -> fits (-1 :: t) (L ++ x ++ s).
Proof.
  intros Hx (rs & hs & T & F & U & E). exists (SLeft nonce x cl :: rs), ((L, x) :: hs). cbn [map sage_tag sage_unpack_all sage_unpack flat_map fst snd].
  rewrite T, Hl, U, E. split; [reflexivity|]. split; [constructor; [cbn; auto|exact F]|]. split; [reflexivity|]. now rewrite app_assoc.
Qed.
Lemma fits_right t s x : x <> [] -> fits t s -> fits (1 :: t) (x ++ R ++ s).
Proof.
  intros Hx (rs & hs & T & F & U & E). exists (SRight x nonce cr :: rs), ((x, R) :: hs). cbn [map sage_tag sage_unpack_all sage_unpack flat_map fst snd].
  rewrite T, Hr, U, E. split; [reflexivity|]. split; [constructor; [cbn; auto|exact F]|]. split; [reflexivity|]. now rewrite app_assoc.
Qed.
Lemma fits_bottom k t s : fits t s -> fits (repeat 0 k ++ t) (rep_bytes k B ++ s).
Proof.
  intros H. induction k as [|k IH]; [exact H|]. destruct IH as (rs & hs & T & F & U & E).
  exists (SBottom nonce nonce E2 cb :: rs), ((sage_hash_hiding nonce (jpack E2), sage_hash_hiding nonce j3b) :: hs). cbn [map sage_tag sage_unpack_all sage_unpack flat_map fst snd].
  rewrite T, Hb, U, E. split; [reflexivity|]. split; [constructor; [cbn; auto|exact F]|]. split; [reflexivity|].
  unfold rep_bytes. cbn [repeat concat]. unfold B at 2. now rewrite <- !app_assoc.
Qed.
Lemma split_zeros t : Forall (fun x => In x [-1; 0; 1]) t -> t = repeat 0 (length t) \/ exists k d t', t = repeat 0 k ++ d :: t' /\ (d = -1 \/ d = 1) /\ Forall (fun x => In x [-1; 0; 1]) t'.
Proof.
  induction t as [|x t IH]; intros H; [left; reflexivity|]. inversion H as [|? ? Hx Ht]; subst.
  destruct Hx as [<- | [<- | [<- | []]]].
  - right. exists 0%nat, (-1), t. auto.
  - destruct (IH Ht) as [E|(k & d & t' & -> & Hd & F)]; [left; cbn; congruence|]. right. exists (S k), d, t'. auto.
  - right. exists 0%nat, 1, t. auto.
Qed.
Lemma seg_split k m : (k <= m)%nat -> exists pre post, round m = pre ++ ([0] ++ R ++ rep_bytes k B ++ L ++ [0]) ++ post.
Proof.
  intros H. unfold round. replace (S m) with (k + (1 + (m - k)))%nat by lia. rewrite seq_app, flat_map_app. cbn [Nat.add seq flat_map].
  unfold seg at 2. eauto.
Qed.
Lemma forge_main m n : forall t, (length t <= n)%nat -> (length t <= m)%nat -> Forall (fun x => In x [-1; 0; 1]) t -> last t 0 = -1 ->
  exists skip rest, skip <> [] /\ rep_bytes n (round m) = skip ++ R ++ rest /\ fits t rest.
Proof.
  induction n as [|n IH]; intros t Ln Lm Ht La.
  - destruct t; [discriminate|cbn in Ln; lia].
  - destruct (split_zeros t Ht) as [E|(k & d & t' & -> & Hd & F)].
    { exfalso. rewrite E in La. clear - La. assert (X : forall n, last (repeat 0 n) 0 = 0) by (induction n as [|[|n] IH]; auto). rewrite X in La. discriminate. }
    rewrite app_length, repeat_length in Ln, Lm. cbn [length] in Ln, Lm.
    destruct (seg_split k m) as (pre & post & Eu); [lia|].
    assert (Er : rep_bytes (S n) (round m) = (pre ++ [0]) ++ R ++ rep_bytes k B ++ L ++ [0] ++ post ++ rep_bytes n (round m)).
    { change (rep_bytes (S n) (round m)) with (round m ++ rep_bytes n (round m)). rewrite Eu at 1. now rewrite <- !app_assoc. }
    exists (pre ++ [0]). rewrite Er.
    assert (NE : forall (l : list Z) x, l ++ [x] <> []) by (intros [|] ?; discriminate).
    destruct t' as [|d' t'].
    + rewrite last_last in La. subst d. eexists. split; [apply NE|]. split; [reflexivity|]. apply fits_bottom.
      rewrite <- (app_nil_r ([0] ++ post ++ rep_bytes n (round m))). apply fits_left; [discriminate|apply fits_nil].
    + assert (La' : last (d' :: t') 0 = -1).
      { rewrite <- La. clear. set (q := d' :: t'). assert (X : forall (a : list Z), last (a ++ d :: q) 0 = last q 0).
        { induction a as [|x a IH]; [reflexivity|]. cbn [app]. rewrite <- IH. destruct a; reflexivity. } symmetry. apply X. }
      destruct (IH (d' :: t')) as (skip & rest & Ns & Es & Fi); [cbn [length] in *; lia|cbn [length] in *; lia|exact F|exact La'|].
      rewrite Es. eexists. split; [apply NE|]. split; [reflexivity|]. apply fits_bottom. destruct Hd as [-> | ->].
      * replace (L ++ [0] ++ post ++ skip ++ R ++ rest) with (L ++ ([0] ++ post ++ skip ++ R) ++ rest) by (now rewrite <- !app_assoc).
        apply fits_left; [discriminate|exact Fi].
      * replace (L ++ [0] ++ post ++ skip ++ R ++ rest) with ((L ++ [0] ++ post ++ skip) ++ R ++ rest) by (now rewrite <- !app_assoc).
        apply fits_right; [|exact Fi]. intros X. apply (f_equal (@length Z)) in X. rewrite !app_length in X. cbn in X. lia.
Qed.
Lemma forge_fits reps t : length t = reps -> Forall (fun x => In x [-1; 0; 1]) t -> hd 0 t = 1 -> last t 0 = -1 -> fits t (transcript reps).
Proof.
  intros Lt Ht H1 H2. destruct t as [|x t]; [discriminate|]. cbn [hd] in H1. subst x.
  assert (Nt : t <> []) by (intros ->; discriminate).
  destruct (forge_main reps reps t) as (skip & rest & Ns & E & F); [cbn in Lt; lia|cbn in Lt; lia|now inversion Ht|destruct t; auto; congruence|].
  unfold transcript. rewrite E. now apply fits_right.
Qed.
(** the challenge is a function of the concatenated hashes and of the number of repetitions *)
Definition forged_challenge (fuel reps : nat) : out (list Z) :=
  sage_trits reps [] (shake256 fuel ([1] ++ jpack E0 ++ jpack E1 ++ transcript reps)).
Lemma all_length rs : forall hs, unpack_all E0 E1 rs = Some hs -> length hs = length rs.
Proof.
  induction rs as [|r rs IH]; cbn [sage_unpack_all]; intros hs; [intros [= <-]; auto|].
  destruct (unpack E0 E1 r); [|discriminate]. destruct (unpack_all E0 E1 rs); [|discriminate]. intros [= <-]. cbn. f_equal. auto.
Qed.
Lemma forgery fuel reps c : forged_challenge fuel reps = Ok c -> hd 0 c = 1 -> last c 0 = -1 ->
  exists rs, length rs = reps /\ map sage_tag rs = c /\ Forall (sage_readable w h) rs /\
    sage_verify jpack chainA chainB fuel E0 E1 c rs = Ok true.
Proof.
  intros Hc H1 H2. assert (X := Hc). unfold forged_challenge in X. rewrite sage_trits_ok in X. cbn zeta in X. rewrite app_nil_l in X.
  destruct (Nat.leb_spec reps (length (trit_stream (shake256 fuel ([1] ++ jpack E0 ++ jpack E1 ++ transcript reps))))) as [Lt|]; [|discriminate].
  apply (f_equal (fun o => match o with Ok c => c | _ => [] end)) in X. cbv beta iota in X.
  assert (Lc : length c = reps) by (rewrite <- X, firstn_length; lia).
  assert (Rc : Forall (fun x => In x [-1; 0; 1]) c) by (rewrite <- X; apply Forall_firstn, trit_stream_range).
  destruct (forge_fits reps c Lc Rc H1 H2) as (rs & hs & T & F & U & E).
  assert (Lr' : length rs = reps) by (rewrite <- Lc, <- T; now rewrite map_length).
  exists rs. repeat split; auto. unfold sage_verify. rewrite U. unfold sage_challenge, sage_challenge_input. rewrite E, (all_length _ _ U), Lr'.
  fold (forged_challenge fuel reps). rewrite Hc. cbn [bind]. destruct (list_eq_dec Z.eq_dec c c); [reflexivity|congruence].
Qed.
End Forge.

Lemma sage_plen_ok t K : In K [K434 t; K503 t; K610 t; K751 t] -> sage_plen (Wf.par_p (fpar K)) = fp_bytes (fpar K).
Proof. intros [<- | [<- | [<- | [<- | []]]]]; destruct t; vm_compute; reflexivity. Qed.
From Verif Require Import Fp Fld FpRep FpInst.
Lemma config_good t K : In K [K434 t; K503 t; K610 t; K751 t] -> good (fpar K).
Proof. destruct (good_configs t) as (g1 & g2 & g3 & g4). intros [<- | [<- | [<- | [<- | []]]]]; assumption. Qed.
Lemma pack_same t K : In K [K434 t; K503 t; K610 t; K751 t] -> forall a,
  let P := fpar K in
  ok P (fst a) -> ok P (snd a) -> valB (2 ^ radix P) (fst a) <= 255 * par_p P -> valB (2 ^ radix P) (snd a) <= 255 * par_p P ->
  fp2_encode P a = sage_pack (par_p P) (fval (toF P (fst a)), fval (toF P (snd a))).
Proof.
  intros HK a P H1 H2 H3 H4. unfold P. rewrite encode_val; auto; [|eapply config_good; eauto].
  unfold sage_pack. rewrite (sage_plen_ok t K HK). reflexivity.
Qed.
Lemma same_hash_434_503 t K r v : In K [K434 t; K503 t] -> sage_hash_hiding r v = hash_hiding K r v.
Proof. intros [<- | [<- | []]]; reflexivity. Qed.
Lemma different_hash_610_751 t K r v : In K [K610 t; K751 t] -> digits 256 r -> digits 256 v ->
  sage_hash_hiding r v <> hash_hiding K r v.
Proof. intros H Dr Dv. apply different_hash; auto. destruct H as [<- | [<- | []]]; discriminate. Qed.
