(** The operations of the x86-64 build simulate the field operations, under the same relation as those of the portable build. *)
From Coq Require Import Znumtheory Field.
From Verif Require Import Base BaseP Digits DigitsP Out Params Fp Wf FpP Fld FpRep FpMisc FpMiscP Ops Sim WordOps FieldOps WordSim
  Asm AsmP434 AsmP AsmRedP AsmMul434 AsmAdd434 AsmFp434 AsmSqr434 AsmDbl434 AsmRun434 X64.
Set Bullet Behavior "Strict Subproofs".

(** ** Above the primitives: a multiplication that is the portable one on reduced values gives the portable functions *)
Section Above.
Variable P : params.
Hypothesis HW : Wf P.
Hypothesis Hp : prime (par_p P).
Variables mul add sub : felm -> felm -> felm.
Local Notation w := (radix P).
Local Notation n := (nwords P).
Local Notation p := (par_p P).
Local Notation val := (valB (2 ^ radix P)).
Local Notation ok := (ok P).
Local Notation rep := (rep P).
Local Notation srep := (srep P).
Local Notation rep2 := (rep2 P HW Hp).
Local Notation srep2 := (srep2 P HW Hp).
Hypothesis Hmul : forall a b, ok a -> ok b -> val a <= 2 * p -> val b <= 2 * p -> mul a b = fpmul_mont P a b.
Hypothesis Hadd : forall a b, ok a -> ok b -> add a b = fpadd P a b.
Hypothesis Hsub : forall a b, ok a -> ok b -> sub a b = fpsub P a b.
Local Notation sqr := (fun a => mul a a).

Lemma mul_m a b x y : rep 2 a x -> rep 2 b y -> mul a b = fpmul_mont P a b.
Proof. intros (O1 & B1 & _) (O2 & B2 & _). auto. Qed.
Lemma add_m j k a b x y : rep j a x -> rep k b y -> add a b = fpadd P a b.
Proof. intros (O1 & _) (O2 & _). auto. Qed.
Lemma sub_m j k a b x y : rep j a x -> rep k b y -> sub a b = fpsub P a b.
Proof. intros (O1 & _) (O2 & _). auto. Qed.
Lemma mul_r a b x y : rep 2 a x -> rep 2 b y -> rep 2 (fpmul_mont P a b) (fmul x y).
Proof. intros. apply (srep_rep P), (rep_mul P HW Hp 2 2); auto; lia. Qed.
Lemma sqr_r a x : rep 2 a x -> rep 2 (fpsqr_mont P a) (fmul x x).
Proof. intros. now apply mul_r. Qed.

Lemma iter_rep k a x : rep 2 a x -> exists y, rep 2 (Nat.iter k (fpsqr_mont P) a) y.
Proof.
  intros H. induction k as [|k [y IH]]; [now exists x|]. exists (fmul y y).
  change (rep 2 (fpsqr_mont P (Nat.iter k (fpsqr_mont P) a)) (fmul y y)). now apply sqr_r.
Qed.
Lemma iter_m k a x : rep 2 a x -> Nat.iter k sqr a = Nat.iter k (fpsqr_mont P) a.
Proof.
  intros H. induction k as [|k IH]; [reflexivity|]. destruct (iter_rep k a x H) as [y Hy].
  change (mul (Nat.iter k sqr a) (Nat.iter k sqr a) = fpsqr_mont P (Nat.iter k (fpsqr_mont P) a)).
  rewrite IH. exact (mul_m _ _ _ _ Hy Hy).
Qed.

Section Chain.
Variables (a : felm) (x : Fp p).
Hypothesis Ha : rep 2 a x.
Local Notation tabrel := (tabrel P x).
Lemma chain_mul_eq t te tt e s e' : tabrel t te -> 0 <= e -> rep 2 tt (fpow x e) ->
  exp_mul te (Some e) s = Some e' -> chain_mul_m mul a t tt s = chain_mul P a t tt s.
Proof.
  destruct s as [k m]; cbn [exp_mul chain_mul chain_mul_m]; intros Ht He Htt Hs. cbv zeta.
  rewrite (iter_m k tt _ Htt). destruct (iter_rep k tt _ Htt) as [y Hy].
  destruct m as [i|]; [|exact (mul_m _ _ _ _ Ha Hy)].
  destruct (nth i te None) as [f|] eqn:Ef; [|discriminate]. destruct (Ht _ _ Ef) as [_ Hr]. exact (mul_m _ _ _ _ Hr Hy).
Qed.
Lemma fold_chain_eq t te l : tabrel t te -> forall tt e e', 0 <= e -> rep 2 tt (fpow x e) ->
  fold_left (exp_mul te) l (Some e) = Some e' -> fold_left (chain_mul_m mul a t) l tt = fold_left (chain_mul P a t) l tt.
Proof.
  intros Ht. induction l as [|s l IH]; intros tt e e' He Hr Hf; [reflexivity|]. cbn [fold_left] in Hf |- *.
  destruct (exp_mul te (Some e) s) as [f|] eqn:Es; [|rewrite (fold_exp_None te) in Hf; discriminate].
  rewrite (chain_mul_eq _ _ _ _ _ _ Ht He Hr Es).
  destruct (chain_mul_rep P HW Hp a x Ha _ _ _ _ _ _ Ht He Hr Es). apply (IH _ f e'); auto.
Qed.
Lemma iter_chain_eq t te l : tabrel t te -> forall k tt e e', 0 <= e -> rep 2 tt (fpow x e) ->
  Nat.iter k (fun e => fold_left (exp_mul te) l e) (Some e) = Some e' ->
  Nat.iter k (fun tt => fold_left (chain_mul_m mul a t) l tt) tt = Nat.iter k (fun tt => fold_left (chain_mul P a t) l tt) tt.
Proof.
  intros Ht. induction k as [|k IH]; intros tt e e' He Hr Hf; [reflexivity|].
  rewrite iter_succ_r in Hf. rewrite !iter_succ_r.
  destruct (fold_left (exp_mul te) l (Some e)) as [f|] eqn:Es; [|rewrite (iter_exp_None te) in Hf; discriminate].
  rewrite (fold_chain_eq _ _ _ Ht _ _ _ He Hr Es).
  destruct (fold_chain_rep P HW Hp a x Ha _ _ _ Ht _ _ _ He Hr Es). apply (IH _ f e'); auto.
Qed.
(** A table that is written only from entries written before. *)
Definition okt (l : list (nat * nat)) (te : list (option Z)) : Prop :=
  snd (fold_left (fun '(te, b) '(i, j) =>
         (upd j (match nth i te None with Some f => Some (f + 2) | None => None end) te,
          b && match nth i te None with Some _ => true | None => false end)) l (te, true)) = true.
Lemma okt_cons i j l te : okt ((i, j) :: l) te ->
  (exists f, nth i te None = Some f) /\ okt l (upd j (match nth i te None with Some f => Some (f + 2) | None => None end) te).
Proof.
  unfold okt. cbn [fold_left andb]. intros H. destruct (nth i te None) as [f|].
  - split; [now exists f|exact H].
  - exfalso. revert H. generalize (upd j (@None Z) te). induction l as [|[u v] l IH]; intros t H; cbn [fold_left snd andb] in H; [discriminate|].
    eapply IH; exact H.
Qed.
Lemma table_eq tt l : rep 2 tt (fpow x 2) -> forall t te, length t = length te -> tabrel t te -> okt l te ->
  fold_left (fun t '(i, j) => upd j (mul (nth i t []) tt) t) l t = fold_left (fun t '(i, j) => upd j (fpmul_mont P (nth i t []) tt) t) l t.
Proof.
  intros Htt. induction l as [|[i j] l IH]; intros t te L Ht Hk; [reflexivity|]. cbn [fold_left].
  apply okt_cons in Hk as [[f Ef] Hk]. destruct (Ht _ _ Ef) as [Hf Hr].
  pose proof (mul_m _ _ _ _ Hr Htt) as E. change (@nth felm) with (@nth (list Z)) in E. rewrite E. apply (IH _ (upd j (match nth i te None with Some f => Some (f + 2) | None => None end) te)); auto.
  - now rewrite !upd_length.
  - apply (tabrel_upd P x); auto. rewrite Ef. split; [lia|]. rewrite (fpow_add P) by lia. now apply mul_r.
Qed.
Hypothesis Hok : okt (inv_table P) (upd 0 (Some 3) (repeat None (inv_size P))).
Lemma chain_eq : fpinv_chain_m P mul a = fpinv_chain_mont P a.
Proof.
  pose proof (wf_inv P HW) as HI. unfold chain_exp in HI. unfold fpinv_chain_mont, fpinv_chain_m.
  set (te0 := upd 0 (Some 3) (repeat None (inv_size P))) in *.
  set (te := fold_left _ (inv_table P) te0) in HI. cbv zeta.
  rewrite (mul_m a a x x Ha Ha). change (fpmul_mont P a a) with (fpsqr_mont P a).
  assert (Htt : rep 2 (fpsqr_mont P a) (fpow x 2)) by (rewrite (fpow_2 P); now apply sqr_r).
  rewrite (mul_m a _ x _ Ha Htt).
  set (t0 := upd 0 (fpmul_mont P a (fpsqr_mont P a)) (repeat [] (inv_size P))).
  assert (L0 : length t0 = length te0) by (unfold t0, te0; now rewrite !upd_length, !repeat_length).
  assert (R0 : tabrel t0 te0).
  { unfold t0, te0. apply (tabrel_upd P x).
    - rewrite !repeat_length. reflexivity.
    - intros i e H. rewrite nth_repeat in H. discriminate.
    - split; [lia|]. replace 3 with (1 + 2) by lia. rewrite (fpow_add P), (fpow_1 P) by lia. now apply mul_r. }
  rewrite (table_eq _ (inv_table P) Htt t0 te0 L0 R0 Hok).
  pose proof (table_rep P HW Hp x _ (inv_table P) Htt t0 te0 L0 R0) as Ht.
  set (t := fold_left (fun t '(i, j) => upd j (fpmul_mont P (nth i t []) (fpsqr_mont P a)) t) (inv_table P) t0) in *.
  fold te in Ht.
  destruct (inv_loop P) as [k body].
  destruct (fold_left (exp_mul te) (inv_steps P) (Some 1)) as [e|] eqn:Es; [|rewrite (iter_exp_None te) in HI; discriminate].
  assert (R1 : rep 2 a (fpow x 1)) by (rewrite (fpow_1 P); exact Ha).
  destruct (fold_chain_rep P HW Hp a x Ha t te (inv_steps P) Ht a 1 e ltac:(lia) R1 Es) as [He Hr].
  rewrite (fold_chain_eq t te (inv_steps P) Ht a 1 e ltac:(lia) R1 Es).
  exact (iter_chain_eq t te body Ht k _ e _ He Hr HI).
Qed.
Lemma inv_eq : fpinv_m P mul a = fpinv_mont P a.
Proof.
  unfold fpinv_m, fpinv_mont. rewrite chain_eq. cbv zeta. pose proof (chain_rep P HW Hp a x Ha) as H.
  rewrite (mul_m _ _ _ _ H H). change (fpmul_mont P (fpinv_chain_mont P a) (fpinv_chain_mont P a)) with (fpsqr_mont P (fpinv_chain_mont P a)). pose proof (sqr_r _ _ H) as H1.
  rewrite (mul_m _ _ _ _ H1 H1). change (fpmul_mont P (fpsqr_mont P (fpinv_chain_mont P a)) (fpsqr_mont P (fpinv_chain_mont P a))) with (fpsqr_mont P (fpsqr_mont P (fpinv_chain_mont P a))).
  exact (mul_m _ _ _ _ Ha (sqr_r _ _ H1)).
Qed.
End Chain.

Hypothesis Hok : okt (inv_table P) (upd 0 (Some 3) (repeat None (inv_size P))).
Lemma fp2inv_eq a x : rep2 2 a x -> fp2inv_m P mul add a = fp2inv_mont P a.
Proof.
  destruct a as [a b], x as [x y]. intros [Ha Hb]. cbn [fst snd] in *. unfold fp2inv_m, fp2inv_mont. cbv zeta.
  rewrite (mul_m _ _ _ _ Ha Ha), (mul_m _ _ _ _ Hb Hb). pose proof (sqr_r _ _ Ha) as H1. pose proof (sqr_r _ _ Hb) as H2.
  change (fpmul_mont P a a) with (fpsqr_mont P a). change (fpmul_mont P b b) with (fpsqr_mont P b). rewrite (add_m _ _ _ _ _ _ H1 H2).
  pose proof (rep_add P HW Hp _ _ _ _ H1 H2) as H3. rewrite (inv_eq _ _ H3 Hok).
  pose proof (srep_rep P _ _ (rep_inv P HW Hp _ _ H3)) as H4.
  rewrite (mul_m _ _ _ _ Ha H4), (mul_m _ _ _ _ (rep_neg P HW Hp _ _ Hb) H4). reflexivity.
Qed.
Lemma fp_equal_eq j k a b x y : rep j a x -> rep k b y -> fp_equal_m P sub a b = fp_equal P a b.
Proof. intros H1 H2. unfold fp_equal_m, fp_equal. now rewrite (sub_m _ _ _ _ _ _ H1 H2). Qed.
Lemma fp2_equal_eq a b x y : srep2 a x -> srep2 b y -> fp2_equal_m P sub a b = fp2_equal P a b.
Proof.
  intros [H1 H2] [H3 H4]. unfold fp2_equal_m, fp2_equal. f_equal; eapply fp_equal_eq; apply (srep_rep P); eauto.
Qed.
Lemma root_eq a x : rep 2 a x -> fp_root_m P mul a = fp_root P a.
Proof.
  intros H. unfold fp_root_m, fp_root. cbv zeta. rewrite (iter_m _ _ _ H). destruct (iter_rep (e2 P - 2) a x H) as [y Hy].
  generalize dependent (Nat.iter (e2 P - 2) (fpsqr_mont P) a). intros t Ht. clear H.
  assert (G : exists z, rep 2 (Nat.iter (e3 P) (fun t1 => fpmul_mont P t1 (fpsqr_mont P t1)) t) z /\
    Nat.iter (e3 P) (fun t1 => mul t1 (mul t1 t1)) t = Nat.iter (e3 P) (fun t1 => fpmul_mont P t1 (fpsqr_mont P t1)) t); [|now destruct G as [z [_ G]]].
  induction (e3 P) as [|k [z [Hz IH]]]; [now exists y|]. exists (fmul z (fmul z z)).
  set (f := fun t1 => fpmul_mont P t1 (fpsqr_mont P t1)) in *. set (g := fun t1 => mul t1 (mul t1 t1)) in *.
  change (Nat.iter (S k) f t) with (f (Nat.iter k f t)). change (Nat.iter (S k) g t) with (g (Nat.iter k g t)). rewrite IH.
  clear IH. generalize dependent (Nat.iter k f t). intros u Hu. unfold f, g.
  split; [apply mul_r; auto; now apply sqr_r|].
  rewrite (mul_m u u z z Hu Hu). exact (mul_m _ _ _ _ Hu (sqr_r _ _ Hu)).
Qed.
Lemma sqrt_eq a x : srep2 a x -> fp2sqrt_m P mul add sub a = fp2sqrt_word P a.
Proof.
  destruct a as [a b], x as [x y]. intros [Ha Hb]. cbn [fst snd] in *. unfold fp2sqrt_m, fp2sqrt_word. cbv zeta.
  pose proof (srep_rep P _ _ (rep_zero P HW Hp)) as H0. apply (srep_rep P) in Ha, Hb.
  rewrite (fp_equal_eq _ _ _ _ _ _ Hb H0). destruct (negb _).
  - rewrite (root_eq _ _ Ha). pose proof (root_rep P HW Hp _ _ Ha) as H1. rewrite (mul_m _ _ _ _ H1 H1).
    change (fpmul_mont P (fp_root P a) (fp_root P a)) with (fpsqr_mont P (fp_root P a)). now rewrite (fp_equal_eq _ _ _ _ _ _ (sqr_r _ _ H1) Ha).
  - rewrite (mul_m _ _ _ _ Ha Ha), (mul_m _ _ _ _ Hb Hb). change (fpmul_mont P a a) with (fpsqr_mont P a). change (fpmul_mont P b b) with (fpsqr_mont P b).
    pose proof (sqr_r _ _ Ha) as H1. pose proof (sqr_r _ _ Hb) as H2. rewrite (add_m _ _ _ _ _ _ H1 H2).
    pose proof (rep_add P HW Hp _ _ _ _ H1 H2) as H3. rewrite (root_eq _ _ H3). pose proof (root_rep P HW Hp _ _ H3) as H4.
    rewrite (add_m _ _ _ _ _ _ Ha H4). pose proof (rep_div2 P HW Hp _ _ (rep_add P HW Hp _ _ _ _ Ha H4)) as V1.
    destruct (rep_corr P HW Hp _ _ V1) as [V2 _]. apply (rep_le P HW 1 2) in V2; [|lia].
    set (v := fpcorrection P _) in *. rewrite (chain_eq _ _ V2 Hok). pose proof (chain_rep P HW Hp _ _ V2) as C1.
    rewrite (mul_m _ _ _ _ V2 C1), (mul_m _ _ _ _ C1 Hb). pose proof (mul_r _ _ _ _ V2 C1) as T1.
    rewrite (mul_m _ _ _ _ T1 T1). reflexivity.
Qed.
Hypothesis Hunit : forall a, ok a -> val a <= 2 * p -> mul a (upd 0 1 (fpzero P)) = fpmul_mont P a (upd 0 1 (fpzero P)).
Lemma from_eq a x : rep 2 a x -> from_mont_m P mul a = from_mont P a.
Proof. intros (O & B & _). unfold from_mont_m, from_mont. now rewrite Hunit. Qed.
Lemma lt_eq a b x y : rep2 2 a x -> rep2 2 b y -> lt_m P mul a b = lt_word P a b.
Proof.
  intros [A1 A2] [B1 B2]. unfold lt_m, lt_word. cbv zeta.
  now rewrite (from_eq _ _ A1), (from_eq _ _ A2), (from_eq _ _ B1), (from_eq _ _ B2).
Qed.
Lemma enc_eq a x : rep2 2 a x -> fp2_encode_m P mul a = fp2_encode P a.
Proof. intros [A1 A2]. unfold fp2_encode_m, fp2_encode, from_fp2mont. cbn [fst snd]. now rewrite (from_eq _ _ A1), (from_eq _ _ A2). Qed.
Hypothesis HR2 : forall a, ok a -> val a < 256 ^ Z.of_nat (fp_bytes P) -> mul a (w_R2 P) = fpmul_mont P a (w_R2 P).
Lemma dec_eq old b : ok (fst old) -> ok (snd old) -> elem_ok P b -> fp2_decode_m P mul old b = fp2_decode P old b.
Proof.
  intros [L1 D1] [L2 D2] [Db Lb]. unfold fp2_decode_m, fp2_decode, to_fp2mont. cbn [fst snd].
  assert (La : length (firstn (fp_bytes P) b) = fp_bytes P) by (rewrite firstn_length; lia).
  assert (Lc : length (firstn (fp_bytes P) (skipn (fp_bytes P) b)) = fp_bytes P) by (rewrite firstn_length, skipn_length; lia).
  assert (Da : digits 256 (firstn (fp_bytes P) b)) by now apply digits_firstn.
  assert (Dc : digits 256 (firstn (fp_bytes P) (skipn (fp_bytes P) b))) by now apply digits_firstn, digits_skipn.
  destruct (decode_ok P HW (fst old) _ L1 D1 La Da) as [O3 V3]. destruct (decode_ok P HW (snd old) _ L2 D2 Lc Dc) as [O4 V4].
  pose proof (valB_bound 256 _ ltac:(lia) Da) as B3. pose proof (valB_bound 256 _ ltac:(lia) Dc) as B4. rewrite La in B3. rewrite Lc in B4.
  unfold to_mont_m, to_mont. f_equal; apply HR2; auto.
  - eapply Z.le_lt_trans; [apply Z.eq_le_incl; exact V3|apply B3].
  - eapply Z.le_lt_trans; [apply Z.eq_le_incl; exact V4|apply B4].
Qed.
Local Notation OF := (field_ops P HW Hp).
Lemma inv_f a x : rep2 2 a x -> srep2 (fp2inv_m P mul add a) (o_inv OF x).
Proof. intros H. rewrite (fp2inv_eq a x H). exact (s_inv _ _ (word_sim P HW Hp) a x H). Qed.
Lemma sqrt_f a x : srep2 a x -> rep2 2 (fp2sqrt_m P mul add sub a) (o_sqrt OF x).
Proof. intros H. rewrite (sqrt_eq a x H). exact (s_sqrt _ _ (word_sim P HW Hp) a x H). Qed.
Lemma eq_f a b x y : srep2 a x -> srep2 b y -> negb (fp2_equal_m P sub a b =? 0) = o_eq OF x y.
Proof. intros H1 H2. rewrite (fp2_equal_eq a b x y H1 H2). exact (s_eq _ _ (word_sim P HW Hp) a b x y H1 H2). Qed.
Lemma lt_f a b x y : rep2 2 a x -> rep2 2 b y -> lt_m P mul a b = o_lt OF x y.
Proof. intros H1 H2. rewrite (lt_eq a b x y H1 H2). exact (s_lt _ _ (word_sim P HW Hp) a b x y H1 H2). Qed.
Lemma enc_f a x : rep2 2 a x -> fp2_encode_m P mul a = o_enc OF x.
Proof. intros H. rewrite (enc_eq a x H). exact (s_enc _ _ (word_sim P HW Hp) a x H). Qed.
Lemma dec_f b : elem_ok P b -> srep2 (fp2_decode_m P mul (fp2zero_w P) b) (o_dec OF b).
Proof. intros H. rewrite (dec_eq (fp2zero_w P) b (ok_zero P HW) (ok_zero P HW) H). exact (s_dec _ _ (word_sim P HW Hp) b H). Qed.
End Above.

(** ** Values *)
Section Vals.
Variable P : params.
Hypothesis HW : Wf P.
Hypothesis Hp : prime (par_p P).
Local Notation p := (par_p P).
Local Notation R := (par_R P).
Local Notation val := (valB (2 ^ radix P)).
Local Notation ok := (Wf.ok P).
Local Notation rep := (FpRep.rep P).
Local Notation rep2 := (FpRep.rep2 P HW Hp).
Definition FthX := Fp_field p Hp.
Add Field FpFdX : FthX.
Lemma mont_toF r v X : (R * val r) mod p = X mod p -> mkF p X = fmul v (fmul (mkF p R) (mkF p R)) -> toF P r = v.
Proof.
  intros E H. apply (toF_intro P HW Hp). apply mkF_eq in E. rewrite mkF_mul, H in E. pose proof (R_ne0 P HW).
  transitivity (fdiv (fmul (mkF p R) (mkF p (val r))) (mkF p R)).
  - field. auto.
  - rewrite E. field. auto.
Qed.
(** The square of a value is little above p. *)
Hypothesis Hhead : 4096 * p <= R.
Lemma mul_tight j k a b x y : rep j a x -> rep k b y -> 0 <= j -> 0 <= k -> j * k <= 64 -> 64 * val (fpmul_mont P a b) <= 65 * p.
Proof.
  intros (Oa & Ba & _) (Ob & Bb & _) Hj Hk Hjk. pose proof (ppos P HW) as Hpp.
  pose proof (ok_bound P HW _ Oa) as Va. pose proof (ok_bound P HW _ Ob) as Vb.
  assert (X : val a * val b <= 64 * p * p) by (apply (prod_bound P HW j k); auto; lia).
  assert (Y : 64 * (64 * p * p) <= R * p) by (replace (64 * (64 * p * p)) with (4096 * p * p) by ring; apply Z.mul_le_mono_nonneg_r; lia).
  assert (HRp : 0 < R) by lia.
  assert (Y' : val a * val b < R * p) by (pose proof (Z.mul_pos_pos R p HRp Hpp); lia).
  destruct (fpmul_mont_val P HW a b Oa Ob Y') as (_ & _ & q & Hq & E).
  assert (Z : q * p < R * p) by (apply Z.mul_lt_mono_pos_r; lia).
  apply Z.mul_le_mono_pos_l with R; [exact HRp|].
  replace (R * (64 * val (fpmul_mont P a b))) with (64 * (R * val (fpmul_mont P a b))) by ring. rewrite E.
  replace (R * (65 * p)) with (65 * (R * p)) by ring. lia.
Qed.
Lemma sqr_tight a x : rep2 4 a x -> 64 * val (fst (fp2sqr_mont P a)) <= 65 * p /\ 64 * val (snd (fp2sqr_mont P a)) <= 65 * p.
Proof.
  intros [H1 H2]. destruct a as [a0 a1], x as [x y]. cbn [fst snd] in *. unfold fp2sqr_mont. cbn [fst snd]. split.
  - apply (mul_tight 8 8 _ _ (fadd x y) (fsub x y)); try lia; [apply (rep_ladd P HW Hp 4 4)|apply (rep_lsub4 P HW Hp 4 4)]; auto; lia.
  - apply (mul_tight 8 4 _ _ (fadd x x) y); try lia; auto. apply (rep_ladd P HW Hp 4 4); auto; lia.
Qed.
(** A value below 2p that is small enough. *)
Lemma sum5 a b c x y z : rep 2 a x -> rep 2 b y -> rep 2 c z -> 64 * val a <= 65 * p -> 64 * val b <= 65 * p ->
  let t := mp_addfast P b c in rep 8 (mp_addfast P a (mp_addfast P t t)) (fadd x (fadd (fadd y z) (fadd y z))).
Proof.
  intros Ha Hb Hc Ba Bb t.
  pose proof (rep_ladd P HW Hp 2 2 _ _ _ _ Hb Hc ltac:(lia)) as H1. fold t in H1.
  pose proof (rep_ladd P HW Hp 4 4 _ _ _ _ H1 H1 ltac:(lia)) as H2.
  pose proof (rep_ladd P HW Hp 2 8 _ _ _ _ Ha H2 ltac:(lia)) as (O3 & _ & E3).
  split; [exact O3|]. split; [|exact E3].
  destruct Ha as (Oa & Va & _), Hb as (Ob & Vb & _), Hc as (Oc & Vc & _). pose proof (ppos P HW) as Hpp.
  destruct (mp_addfast_val P HW b c Ob Oc ltac:(lia)) as [Ot Vt]. fold t in Ot, Vt.
  destruct (mp_addfast_val P HW t t Ot Ot ltac:(lia)) as [Ou Vu].
  destruct (mp_addfast_val P HW a _ Oa Ou ltac:(lia)) as [_ ->]. lia.
Qed.
Lemma ring_sub (a b c d r : Fp p) : fsub (fmul (fmul a r) (fmul b r)) (fmul (fmul c r) (fmul d r)) = fmul (fsub (fmul a b) (fmul c d)) (fmul r r).
Proof. ring. Qed.
Lemma ring_add (a b c d r : Fp p) : fadd (fmul (fmul a r) (fmul b r)) (fmul (fmul c r) (fmul d r)) = fmul (fadd (fmul a b) (fmul c d)) (fmul r r).
Proof. ring. Qed.
End Vals.

(** ** The calls *)
Local Notation P := (P434 T64).
Local Notation ok := (Wf.ok P).
Local Notation vl := (valB (2 ^ radix P)).
Lemma ok7 a : ok a -> length a = 7%nat /\ Forall word a.
Proof. intros [L D]. split; auto. Qed.
Lemma words_ok a : length a = 7%nat -> Forall word a -> ok a.
Proof. intros L D. split; auto. Qed.
Lemma put_app x l l' : forall d m, put x d (l ++ l') m = put x (d + 8 * Z.of_nat (length l)) l' (put x d l m).
Proof.
  induction l as [|v l IH]; intros d m; cbn [app put length]; [now rewrite Z.add_0_r|].
  rewrite IH. f_equal. lia.
Qed.
Lemma start7 a b : length a = 7%nat -> length b = 7%nat -> wat (mem (start a b)) 1000 0 7 = a /\ wat (mem (start a b)) 2000 0 7 = b.
Proof.
  intros La Lb. unfold start. cbn [mem]. split.
  - rewrite <- La. apply put_wat.
  - rewrite put_wat_other by (rewrite La; lia). rewrite <- Lb. apply put_wat.
Qed.
Lemma start14 a0 a1 b0 b1 : length a0 = 7%nat -> length a1 = 7%nat -> length b0 = 7%nat -> length b1 = 7%nat ->
  let m := mem (start (a0 ++ a1) (b0 ++ b1)) in
  wat m 1000 0 7 = a0 /\ wat m 1000 56 7 = a1 /\ wat m 2000 0 7 = b0 /\ wat m 2000 56 7 = b1.
Proof.
  intros La La' Lb Lb'. unfold start. cbn [mem]. rewrite !put_app, La, Lb. change (0 + 8 * Z.of_nat 7) with 56.
  repeat split.
  - rewrite put_wat_other by (rewrite La'; lia). rewrite <- La. apply put_wat.
  - rewrite <- La'. apply put_wat.
  - rewrite !put_wat_other by (rewrite ?La, ?La', ?Lb'; lia). rewrite <- Lb. apply put_wat.
  - rewrite !put_wat_other by (rewrite ?La, ?La'; lia). rewrite <- Lb'. apply put_wat.
Qed.
Lemma start14' a0 a1 : length a0 = 7%nat -> length a1 = 7%nat ->
  let m := mem (start (a0 ++ a1) []) in wat m 1000 0 7 = a0 /\ wat m 1000 56 7 = a1.
Proof.
  intros La La'. unfold start. cbn [mem put]. rewrite !put_app, La. change (0 + 8 * Z.of_nat 7) with 56. split.
  - rewrite put_wat_other by (rewrite La'; lia). rewrite <- La. apply put_wat.
  - rewrite <- La'. apply put_wat.
Qed.

Lemma fpmul_x_eq a b : ok a -> ok b -> vl a + p434 <= W ^ 7 -> vl a * vl b < W ^ 7 * p434 -> fpmul_x a b = fpmul_mont P a b.
Proof.
  intros Ha Hb H1 H2. apply ok7 in Ha as [La Wa], Hb as [Lb Wb]. destruct (start7 a b La Lb) as [Ea Eb].
  pose proof (fpmul434_eq (start a b)) as H. cbv zeta in H. change (rg (start a b) RDI) with 1000 in H. change (rg (start a b) RSI) with 2000 in H.
  rewrite Ea, Eb in H. exact (proj2 (proj2 (H Wa Wb H1 H2))).
Qed.
Lemma fpadd_x_eq a b : ok a -> ok b -> fpadd_x a b = fpadd P a b.
Proof.
  intros Ha Hb. apply ok7 in Ha as [La Wa], Hb as [Lb Wb]. destruct (start7 a b La Lb) as [Ea Eb].
  pose proof (fpadd434_ok (start a b)) as H. cbv zeta in H. change (rg (start a b) RDI) with 1000 in H. change (rg (start a b) RSI) with 2000 in H.
  rewrite Ea, Eb in H. exact (proj2 (proj2 (H Wa Wb))).
Qed.
Lemma fpsub_x_eq a b : ok a -> ok b -> fpsub_x a b = fpsub P a b.
Proof.
  intros Ha Hb. apply ok7 in Ha as [La Wa], Hb as [Lb Wb]. destruct (start7 a b La Lb) as [Ea Eb].
  pose proof (fpsub434_ok (start a b)) as H. cbv zeta in H. change (rg (start a b) RDI) with 1000 in H. change (rg (start a b) RSI) with 2000 in H.
  rewrite Ea, Eb in H. exact (proj2 (proj2 (H Wa Wb))).
Qed.
Lemma mp_sub_x_eq a b : ok a -> ok b -> mp_sub_p2_x a b = mp_sub_p2 P a b.
Proof.
  intros Ha Hb. apply ok7 in Ha as [La Wa], Hb as [Lb Wb]. destruct (start7 a b La Lb) as [Ea Eb].
  pose proof (mp_sub434_p2_ok (start a b)) as H. cbv zeta in H. change (rg (start a b) RDI) with 1000 in H. change (rg (start a b) RSI) with 2000 in H.
  rewrite Ea, Eb in H. exact (proj2 (proj2 (H Wa Wb))).
Qed.
Lemma mp_add_x_eq a b : ok a -> ok b -> mp_add_x a b = mp_addfast P a b.
Proof.
  intros Ha Hb. apply ok7 in Ha as [La Wa], Hb as [Lb Wb]. destruct (start7 a b La Lb) as [Ea Eb].
  pose proof (mp_add434_ok (start a b)) as H. cbv zeta in H. change (rg (start a b) RDI) with 1000 in H. change (rg (start a b) RSI) with 2000 in H.
  change (rg (start a b) RDX) with 3000 in H.
  rewrite Ea, Eb in H. exact (proj2 (proj2 (H Wa Wb ltac:(right; right; lia) ltac:(right; right; lia)))).
Qed.

Section Sim.
Hypothesis HW : Wf P.
Hypothesis Hp : prime (par_p P).
Local Notation rep := (FpRep.rep P).
Local Notation srep := (FpRep.srep P).
Local Notation rep2 := (FpRep.rep2 P HW Hp).
Local Notation srep2 := (FpRep.srep2 P HW Hp).
Local Notation OF := (field_ops P HW Hp).
Local Notation FP := (FpRep.FP P HW Hp).
Lemma head434 : 4096 * p434 <= W ^ 7.
Proof. apply leb_ok. reflexivity. Qed.
Lemma bytes434 : 256 ^ Z.of_nat (fp_bytes P) + p434 <= W ^ 7.
Proof. apply leb_ok. reflexivity. Qed.
Lemma R2_lt : vl (w_R2 P) < p434.
Proof. apply ltb_ok. reflexivity. Qed.
Lemma unit_le : vl (upd 0 1 (fpzero P)) = 1.
Proof. reflexivity. Qed.
Lemma rep_words k a x : rep k a x -> length a = 7%nat /\ Forall word a /\ 0 <= valB W a <= k * p434.
Proof.
  intros (O & B & _). pose proof (ok_bound P HW a O) as [H _]. apply ok7 in O as [L F]. split; [exact L|]. split; [exact F|]. split; [exact H|exact B].
Qed.
(** Products in range, by numbers. *)
Lemma in_range q R a b j k : 4096 * q <= R -> 0 < q -> 0 <= a <= j * q -> 0 <= b <= k * q -> 0 <= j <= 100 -> 0 <= k -> j * k <= 255 ->
  a + q <= R /\ a * b < R * q.
Proof.
  intros HR Hq Ha Hb Hj Hk Hjk. assert (J : j * q <= 100 * q) by (apply Z.mul_le_mono_nonneg_r; lia). split; [lia|].
  apply Z.le_lt_trans with ((j * q) * (k * q)); [apply Z.mul_le_mono_nonneg; lia|].
  replace (j * q * (k * q)) with ((j * k) * q * q) by ring. apply Z.mul_lt_mono_pos_r; [exact Hq|].
  apply Z.le_lt_trans with (255 * q); [apply Z.mul_le_mono_nonneg_r; lia|lia].
Qed.
Lemma mul_x j k a b x y : rep j a x -> rep k b y -> 0 <= j <= 100 -> 0 <= k -> j * k <= 255 -> fpmul_x a b = fpmul_mont P a b.
Proof.
  intros Ha Hb Hj Hk Hjk. destruct (rep_words _ _ _ Ha) as (_ & _ & Va). destruct (rep_words _ _ _ Hb) as (_ & _ & Vb).
  destruct (in_range p434 (W ^ 7) (valB W a) (valB W b) j k head434 p434_pos Va Vb Hj Hk Hjk) as [H1 H2].
  apply fpmul_x_eq; [exact (proj1 Ha)|exact (proj1 Hb)|exact H1|exact H2].
Qed.
Lemma sqr_x a x : rep2 4 a x -> fp2sqr_x a = fp2sqr_mont P a.
Proof.
  intros [H1 H2]. destruct a as [a0 a1], x as [x y]. cbn [fst snd] in *.
  destruct (rep_words _ _ _ H1) as (L0 & W0 & V0). destruct (rep_words _ _ _ H2) as (L1 & W1 & V1).
  pose proof (rep_ladd P HW Hp 4 4 _ _ _ _ H1 H2 ltac:(lia)) as T1. pose proof (rep_lsub4 P HW Hp 4 4 _ _ _ _ H1 H2 ltac:(lia) ltac:(lia)) as T2.
  pose proof (rep_ladd P HW Hp 4 4 _ _ _ _ H1 H1 ltac:(lia)) as T3.
  destruct (rep_words _ _ _ T1) as (_ & _ & U1). destruct (rep_words _ _ _ T2) as (_ & _ & U2). destruct (rep_words _ _ _ T3) as (_ & _ & U3).
  destruct (in_range p434 (W ^ 7) _ _ 8 8 head434 p434_pos U2 U1 ltac:(lia) ltac:(lia) ltac:(lia)) as [R1 R2]. rewrite Z.mul_comm in R2.
  destruct (in_range p434 (W ^ 7) _ _ 4 8 head434 p434_pos V1 U3 ltac:(lia) ltac:(lia) ltac:(lia)) as [R3 R4]. rewrite Z.mul_comm in R4.
  destruct (start14' a0 a1 L0 L1) as [E0 E1]. unfold fp2sqr_x. cbn [fst snd]. set (s := start (a0 ++ a1) []) in *. cbv zeta in E0, E1.
  assert (Q0 : call2 fp2sqr434_c0_asm (a0 ++ a1) = fst (fp2sqr_mont P (a0, a1))).
  { pose proof (fp2sqr434_c0_ok s) as H. cbv zeta in H. change (rg s RDI) with 1000 in H. change (rg s RSI) with 2000 in H.
    rewrite E0, E1 in H. exact (proj2 (proj2 (H W0 W1 ltac:(right; lia) R1 R2))). }
  assert (Q1 : call2 fp2sqr434_c1_asm (a0 ++ a1) = snd (fp2sqr_mont P (a0, a1))).
  { pose proof (fp2sqr434_c1_ok s) as H. cbv zeta in H. change (rg s RDI) with 1000 in H. change (rg s RSI) with 2000 in H.
    rewrite E0, E1 in H. exact (proj2 (proj2 (H W0 W1 R3 R4))). }
  cbv zeta. rewrite Q0, Q1. symmetry. apply surjective_pairing.
Qed.
Lemma mul2_range q R a0 a1 b0 b1 j k : 4096 * q <= R -> 0 < q -> 0 <= a0 <= j * q -> 0 <= a1 <= j * q -> 0 <= b0 <= k * q -> 0 <= b1 <= k * q ->
  0 <= j <= 100 -> 0 <= k <= 8 -> 2 * (j * k) <= 255 ->
  2 * (a0 + a1 + q) <= R /\ a0 * b1 + a1 * b0 < R * q /\ b1 <= 8 * q /\ a0 * b0 + a1 * (8 * q - b1) < R * q.
Proof.
  intros HR Hq A0 A1 B0 B1 Hj Hk Hjk.
  assert (J : j * q <= 100 * q) by (apply Z.mul_le_mono_nonneg_r; lia). assert (K : k * q <= 8 * q) by (apply Z.mul_le_mono_nonneg_r; lia).
  assert (M : forall u v, 0 <= u <= j * q -> 0 <= v <= 8 * q -> u * v <= 800 * q * q).
  { intros u v Hu Hv. apply Z.le_trans with ((100 * q) * (8 * q)); [apply Z.mul_le_mono_nonneg; lia|]. lia. }
  assert (G : 1600 * q * q < R * q) by (apply Z.mul_lt_mono_pos_r; lia).
  pose proof (M a0 b1 A0 ltac:(lia)). pose proof (M a1 b0 A1 ltac:(lia)). pose proof (M a0 b0 A0 ltac:(lia)). pose proof (M a1 (8 * q - b1) A1 ltac:(lia)).
  repeat split; lia.
Qed.
Lemma mul2_x j k a b x y : rep2 j a x -> rep2 k b y -> 0 <= j <= 100 -> 0 <= k <= 8 -> 2 * (j * k) <= 255 ->
  srep2 (fp2mul_x a b) (qmul FP x y).
Proof.
  intros [A0 A1] [B0 B1] Hj Hk Hjk. destruct a as [a0 a1], b as [b0 b1], x as [x0 x1], y as [y0 y1]. cbn [fst snd] in *.
  destruct (rep_words _ _ _ A0) as (La0 & Wa0 & Va0). destruct (rep_words _ _ _ A1) as (La1 & Wa1 & Va1).
  destruct (rep_words _ _ _ B0) as (Lb0 & Wb0 & Vb0). destruct (rep_words _ _ _ B1) as (Lb1 & Wb1 & Vb1).
  destruct (mul2_range p434 (W ^ 7) _ _ _ _ j k head434 p434_pos Va0 Va1 Vb0 Vb1 Hj Hk Hjk) as (R1 & R2 & R3 & R4).
  destruct (start14 a0 a1 b0 b1 La0 La1 Lb0 Lb1) as (E0 & E1 & E2 & E3). unfold fp2mul_x. cbn [fst snd]. cbv zeta in *.
  unfold call3. set (s := start (a0 ++ a1) (b0 ++ b1)) in *.
  assert (HF : Forall word (a0 ++ a1 ++ b0 ++ b1)) by (repeat (apply Forall_app; split; auto)).
  pose proof (fp2mul434_c0_val s) as H0. pose proof (fp2mul434_c1_val s) as H1. cbv zeta in H0, H1.
  change (rg s RDI) with 1000 in H0, H1. change (rg s RSI) with 2000 in H0, H1. change (rg s RDX) with 3000 in H0, H1.
  rewrite E0, E1, E2, E3 in H0, H1.
  specialize (H0 ltac:(right; lia) ltac:(right; lia) HF R1 R3 R4). specialize (H1 HF R1 R2).
  clear - Hp H0 H1 A0 A1 B0 B1. destruct H0 as (_ & _ & F0 & V0 & C0). destruct H1 as (_ & _ & F1 & V1 & C1).
  assert (L0 := wat_length (mem (run fp2mul434_c0_asm s)) 3000 0 7). assert (L1 := wat_length (mem (run fp2mul434_c1_asm s)) 3000 0 7).
  generalize dependent (wat (mem (run fp2mul434_c0_asm s)) 3000 0 7). generalize dependent (wat (mem (run fp2mul434_c1_asm s)) 3000 0 7).
  intros r1 F1 V1 C1 L1 r0 F0 V0 C0 L0.
  destruct A0 as (_ & _ & <-), A1 as (_ & _ & <-), B0 as (_ & _ & <-), B1 as (_ & _ & <-).
  pose proof (mont_toF P HW Hp) as M. pose proof (toF_R P HW Hp) as TR.
  change (2 ^ radix P) with W in M, TR. change (par_R P) with (W ^ 7) in M, TR. change (par_p P) with p434 in M, TR.
  split; cbn [fst snd qmul].
  - split; [now apply words_ok|]. split; [apply V0|]. apply (M r0 _ _ C0). rewrite mkF_sub, !mkF_mul, <- !TR.
    apply (ring_sub P Hp).
  - split; [now apply words_ok|]. split; [apply V1|]. apply (M r1 _ _ C1). rewrite mkF_add, !mkF_mul, <- !TR.
    apply (ring_add P Hp).
Qed.
Lemma mul3_x a u v c x y z t : rep2 2 a x -> rep2 4 u y -> rep2 4 v z -> rep2 2 c t ->
  srep2 (mul3 x64_ops a u v c) (mul3 OF x y z t).
Proof.
  intros Ha Hu Hv Hc. unfold mul3. cbn [T x64_ops field_ops fld_ops o_madd o_mul o_sqr K FpRep.FP2 QF kadd kmul].
  rewrite (sqr_x u y Hu), (sqr_x v z Hv).
  pose proof (srep2_rep2 P HW Hp _ _ (rep2_sqr P HW Hp 4 _ _ Hu ltac:(lia))) as [U0 U1].
  pose proof (srep2_rep2 P HW Hp _ _ (rep2_sqr P HW Hp 4 _ _ Hv ltac:(lia))) as [V0 V1]. destruct Hc as [C0 C1].
  destruct (sqr_tight P HW Hp head434 u y Hu) as [Tu0 Tu1]. destruct (sqr_tight P HW Hp head434 v z Hv) as [Tv0 Tv1].
  pose proof (rep_ladd P HW Hp 2 2 _ _ _ _ V0 C0 ltac:(lia)) as M0. pose proof (rep_ladd P HW Hp 2 2 _ _ _ _ V1 C1 ltac:(lia)) as M1.
  pose proof (rep_ladd P HW Hp 4 4 _ _ _ _ M0 M0 ltac:(lia)) as N0. pose proof (rep_ladd P HW Hp 4 4 _ _ _ _ M1 M1 ltac:(lia)) as N1.
  unfold comp2. cbn [fst snd].
  rewrite (mp_add_x_eq _ _ (proj1 V0) (proj1 C0)), (mp_add_x_eq _ _ (proj1 V1) (proj1 C1)).
  rewrite (mp_add_x_eq _ _ (proj1 M0) (proj1 M0)), (mp_add_x_eq _ _ (proj1 M1) (proj1 M1)).
  rewrite (mp_add_x_eq _ _ (proj1 U0) (proj1 N0)), (mp_add_x_eq _ _ (proj1 U1) (proj1 N1)).
  apply (mul2_x 2 8); [exact Ha| |lia|lia|lia].
  split; cbn [fst snd qadd].
  - exact (sum5 P HW Hp head434 _ _ _ _ _ _ U0 V0 C0 Tu0 Tv0).
  - exact (sum5 P HW Hp head434 _ _ _ _ _ _ U1 V1 C1 Tu1 Tv1).
Qed.
Lemma ok_mul a b : ok a -> ok b -> vl a <= 2 * p434 -> vl b <= 2 * p434 -> fpmul_x a b = fpmul_mont P a b.
Proof.
  intros Ha Hb La Lb. pose proof (proj1 (ok_bound P HW a Ha)) as Pa. pose proof (proj1 (ok_bound P HW b Hb)) as Pb.
  destruct (in_range p434 (W ^ 7) (vl a) (vl b) 2 2 head434 p434_pos (conj Pa La) (conj Pb Lb) ltac:(lia) ltac:(lia) ltac:(lia)) as [H1 H2].
  now apply fpmul_x_eq.
Qed.
Lemma ok_unit_x a : ok a -> vl a <= 2 * p434 -> fpmul_x a (upd 0 1 (fpzero P)) = fpmul_mont P a (upd 0 1 (fpzero P)).
Proof.
  intros Ha La. apply ok_mul; auto; [apply (ok_unit P HW)|]. rewrite unit_le. apply leb_ok. reflexivity.
Qed.
Lemma lt_range q R a b m : a < m -> 0 <= a -> 0 <= b < q -> m + q <= R -> a + q <= R /\ a * b < R * q.
Proof. intros H1 H2 H3 H4. split; [lia|]. apply Z.le_lt_trans with (R * b); [apply Z.mul_le_mono_nonneg_r; lia|apply Z.mul_lt_mono_pos_l; lia]. Qed.
Lemma ok_R2 a : ok a -> vl a < 256 ^ Z.of_nat (fp_bytes P) -> fpmul_x a (w_R2 P) = fpmul_mont P a (w_R2 P).
Proof.
  intros Ha La. pose proof (proj1 (ok_bound P HW a Ha)) as Pa. pose proof (wf_R2 P HW) as Hb. pose proof (proj1 (ok_bound P HW _ Hb)) as Pb.
  destruct (lt_range p434 (W ^ 7) (vl a) (vl (w_R2 P)) _ La Pa (conj Pb R2_lt) bytes434) as [H1 H2].
  now apply fpmul_x_eq.
Qed.
Lemma table_ok : okt (inv_table P) (upd 0 (Some 3) (repeat None (inv_size P))).
Proof. vm_compute. repeat split. Qed.
Definition x64_sim : sim x64_ops OF.
Proof.
  pose (S := word_sim P HW Hp).
  refine (mkSim x64_ops OF rep2 srep2 (elem_ok P) (s_rel _ _ S) (s_le _ _ S) (s_zero _ _ S) (s_one _ _ S) (s_unit _ _ S)
    _ _ _ _ _ _ _ mul3_x _ (s_neg _ _ S) _ (s_div2 _ _ S) _ _ _ _ _ _).
  - intros j k a b x y Ha Hb. pose proof (s_add _ _ S j k a b x y Ha Hb) as H. destruct Ha as [A0 A1], Hb as [B0 B1].
    cbn [o_add x64_ops] in *. unfold comp2. rewrite (fpadd_x_eq _ _ (proj1 A0) (proj1 B0)), (fpadd_x_eq _ _ (proj1 A1) (proj1 B1)). exact H.
  - intros a b x y Ha Hb. pose proof (s_adds _ _ S a b x y Ha Hb) as H. destruct Ha as [A0 A1], Hb as [B0 B1].
    cbn [o_add x64_ops] in *. unfold comp2. rewrite (fpadd_x_eq _ _ (proj1 A0) (proj1 B0)), (fpadd_x_eq _ _ (proj1 A1) (proj1 B1)). exact H.
  - intros j k a b x y Ha Hb. pose proof (s_sub _ _ S j k a b x y Ha Hb) as H. destruct Ha as [A0 A1], Hb as [B0 B1].
    cbn [o_sub x64_ops] in *. unfold comp2. rewrite (fpsub_x_eq _ _ (proj1 A0) (proj1 B0)), (fpsub_x_eq _ _ (proj1 A1) (proj1 B1)). exact H.
  - intros a b x y Ha Hb. pose proof (s_subs _ _ S a b x y Ha Hb) as H. destruct Ha as [A0 A1], Hb as [B0 B1].
    cbn [o_sub x64_ops] in *. unfold comp2. rewrite (fpsub_x_eq _ _ (proj1 A0) (proj1 B0)), (fpsub_x_eq _ _ (proj1 A1) (proj1 B1)). exact H.
  - intros j k a b x y Ha Hb. pose proof (s_madd _ _ S j k a b x y Ha Hb) as H. destruct Ha as [A0 A1], Hb as [B0 B1].
    cbn [o_madd x64_ops] in *. unfold comp2. rewrite (mp_add_x_eq _ _ (proj1 A0) (proj1 B0)), (mp_add_x_eq _ _ (proj1 A1) (proj1 B1)). exact H.
  - intros j k a b x y Ha Hb. pose proof (s_msub _ _ S j k a b x y Ha Hb) as H. destruct Ha as [A0 A1], Hb as [B0 B1].
    cbn [o_msub x64_ops] in *. unfold comp2. rewrite (mp_sub_x_eq _ _ (proj1 A0) (proj1 B0)), (mp_sub_x_eq _ _ (proj1 A1) (proj1 B1)). exact H.
  - intros j k a b x y Ha Hb H. repeat match goal with H : _ && _ = true |- _ => apply andb_prop in H as [? ?] end.
    repeat match goal with H : (_ <=? _) = true |- _ => apply Z.leb_le in H end.
    apply (mul2_x j k); auto; lia.
  - intros j a x Ha H. pose proof (s_sqr _ _ S j a x Ha H) as H1. cbn [o_sqr x64_ops].
    apply andb_prop in H as [_ H]. pose proof (s_le _ _ S j 4 a x H Ha) as H4. rewrite (sqr_x a x H4). exact H1.
  - exact (inv_f P HW Hp _ _ _ ok_mul fpadd_x_eq fpsub_x_eq table_ok).
  - intros a x H. pose proof (s_add1 _ _ S a x H) as H1. cbn [o_add1 x64_ops]. destruct H as [A0 _].
    rewrite (fpadd_x_eq _ _ (proj1 A0) (wf_one P HW)). exact H1.
  - exact (sqrt_f P HW Hp _ _ _ ok_mul fpadd_x_eq fpsub_x_eq table_ok).
  - exact (eq_f P HW Hp _ fpsub_x_eq).
  - exact (lt_f P HW Hp _ ok_unit_x).
  - exact (enc_f P HW Hp _ ok_unit_x).
  - exact (dec_f P HW Hp _ _ _ ok_mul fpadd_x_eq fpsub_x_eq ok_unit_x ok_R2).
Defined.
Lemma x64_rand : rand_ok P -> rand_sim x64_sim.
Proof. intros H. exact (word_rand P HW Hp H). Qed.
End Sim.
