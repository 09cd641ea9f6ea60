(** GF(p^2) on pairs of integers reduced modulo p: a third operation record, equivalent to the other
    two, on which examples are evaluated.  No code of /repo is modelled here. *)
From Coq Require Import Znumtheory Zpow_facts Field.
From Verif Require Import Base BaseP Digits Out Params Fp Wf Fld FpRep FpMisc FpMiscP Ops Sim WordOps FieldOps WordSim.
Set Bullet Behavior "Strict Subproofs".

(** a^e mod p *)
Fixpoint zpow_pos (p a : Z) (e : positive) : Z :=
  match e with
  | xH => a mod p
  | xO e => let h := zpow_pos p a e in (h * h) mod p
  | xI e => let h := zpow_pos p a e in ((h * h) mod p * a) mod p
  end.
Definition zpow (p a e : Z) : Z := match e with Zpos e => zpow_pos p a e | Z0 => 1 mod p | Zneg _ => 0 end.
Lemma zpow_spec p a e : 0 < p -> zpow p a e = a ^ e mod p.
Proof.
  intros Hp. destruct e as [|e|e]; cbn [zpow]; [reflexivity| |reflexivity].
  induction e as [e IH|e IH|]; cbn [zpow_pos].
  - rewrite IH. rewrite Pos2Z.inj_xI, Z.pow_add_r, Z.pow_twice_r, Z.pow_1_r by lia.
    rewrite <- Z.mul_mod by lia. now rewrite Z.mul_mod_idemp_l by lia.
  - rewrite IH. rewrite Pos2Z.inj_xO, Z.pow_twice_r. now rewrite <- Z.mul_mod by lia.
  - now rewrite Z.pow_1_r.
Qed.

Section ZOps.
Variable P : params.
Local Notation p := (par_p P).
Definition zelt : Type := Z * Z.
Definition zmul (x y : zelt) : zelt := ((fst x * fst y - snd x * snd y) mod p, (fst x * snd y + snd x * fst y) mod p).
Definition zinv1 (a : Z) : Z := zpow p a (p - 2).
Definition zhalf : Z := zinv1 (2 mod p).
Definition zRinv : Z := zinv1 (par_R P mod p).
Definition zsqrt (x : zelt) : zelt :=
  let (a, b) := x in
  if b =? 0 then
    let t := zpow p a ((p + 1) / 4) in
    if (t * t) mod p =? a then (t, 0) else (0, t)
  else
    let s := zpow p ((a * a + b * b) mod p) ((p + 1) / 4) in
    let v := ((a + s) * zhalf) mod p in
    let t2 := zpow p v ((p - 3) / 4) in
    let t1 := (v * t2) mod p in
    let t2 := (t2 * b * zhalf) mod p in
    if v =? (t1 * t1) mod p then (t1, t2) else (t2, (- t1) mod p).
Definition zof (a : felm) : Z := (valB (2 ^ radix P) a * zRinv) mod p.
Definition zrand (tp : tape) : out (zelt * tape) :=
  let k := felm_bytes P in
  if (length tp <? 2 * k)%nat then NoTape
  else let b := map (fun x => x mod 256) tp in
       Ok ((zof (fprand P (firstn k b)), zof (fprand P (firstn k (skipn k b)))), skipn (2 * k) tp).
Definition zadd (x y : zelt) : zelt := ((fst x + fst y) mod p, (snd x + snd y) mod p).
Definition zsub (x y : zelt) : zelt := ((fst x - fst y) mod p, (snd x - snd y) mod p).
Definition z_ops : fops :=
  mkOps zelt (0, 0) (1, 0) (zof (vunit P), 0) zadd zsub zadd zsub zmul
    (fun x => zmul x x)
    (fun x => ((- fst x) mod p, (- snd x) mod p))
    (fun x => let n := zinv1 ((fst x * fst x + snd x * snd x) mod p) in ((fst x * n) mod p, (- snd x * n) mod p))
    (fun x => ((fst x * zhalf) mod p, (snd x * zhalf) mod p))
    (fun x => ((fst x + 1) mod p, snd x))
    zsqrt
    (fun x y => (fst x =? fst y) && (snd x =? snd y))
    (fun x y => (fst x <? fst y) || ((fst x =? fst y) && (snd x <? snd y)))
    (fun x => toB 256 (fp_bytes P) (fst x) ++ toB 256 (fp_bytes P) (snd x))
    (fun x => (valB 256 (firstn (fp_bytes P) x) mod p, valB 256 (firstn (fp_bytes P) (skipn (fp_bytes P) x)) mod p))
    zrand.

Hypothesis HW : Wf P.
Hypothesis Hp : prime p.
Local Notation OF := (field_ops P HW Hp).
Local Notation FP := (FP P HW Hp).
Definition zrep (a : zelt) (x : K2 FP) : Prop := a = (fval (fst x), fval (snd x)).
Definition fpth := Fp_field p Hp.
Add Field FZ : fpth.
Lemma p_pos : 0 < p. Proof. pose proof (prime_ge_2 _ Hp). lia. Qed.
Lemma p_ne2 : p > 2. Proof. pose proof (prime_ge_2 _ Hp). pose proof (wf_shape P HW). pose proof (p4 P HW). destruct (Z.eq_dec p 2) as [E|]; [rewrite E in *; discriminate|lia]. Qed.

Lemma fval_add (x y : Fp p) : fval (fadd x y) = (fval x + fval y) mod p. Proof. reflexivity. Qed.
Lemma fval_mul (x y : Fp p) : fval (fmul x y) = (fval x * fval y) mod p. Proof. reflexivity. Qed.
Lemma fval_pow (x : Fp p) e : fval (fpow x e) = zpow p (fval x) e.
Proof. rewrite zpow_spec by apply p_pos. reflexivity. Qed.
Lemma fval_inv (x : Fp p) : fval (finv x) = zinv1 (fval x). Proof. apply fval_pow. Qed.
Lemma zhalf_ok : fval (finv (mkF p 2)) = zhalf. Proof. apply fval_inv. Qed.
Lemma fval_half (x : Fp p) : fval (fdiv x (mkF p 2)) = (fval x * zhalf) mod p.
Proof. unfold fdiv. now rewrite fval_mul, zhalf_ok. Qed.
Lemma zof_ok a : zof a = fval (toF P a).
Proof.
  unfold zof, toF. rewrite fval_mul, fval_inv. cbn [fval mkF proj1_sig]. fold zRinv. now rewrite Z.mul_mod_idemp_l by (pose proof p_pos; lia).
Qed.
Lemma f0_val : fval (@f0 p) = 0. Proof. apply Z.mod_0_l. pose proof p_pos; lia. Qed.
Lemma f1_val : fval (@f1 p) = 1. Proof. apply Z.mod_1_l. pose proof (prime_ge_2 _ Hp). lia. Qed.
Lemma feq_z (x y : Fp p) : (if Fp_dec p x y then true else false) = (fval x =? fval y).
Proof. destruct (Fp_dec p x y) as [->|N]; [now rewrite Z.eqb_refl|]. symmetry. apply Z.eqb_neq. intros E. apply N. now apply Fp_ext. Qed.
Lemma zsqrt_ok a x : zrep a x -> zrep (zsqrt a) (qsqrt P HW Hp x).
Proof.
  destruct x as [u v]. unfold zrep. cbn [fst snd]. intros ->. unfold zsqrt, qsqrt.
  assert (E0 : (fval v =? 0) = if Fp_dec p v f0 then true else false) by (rewrite feq_z, f0_val; reflexivity).
  rewrite E0. destruct (Fp_dec p v f0) as [Ev|Nv].
  - rewrite <- fval_pow. set (t := fpow u _). cbv zeta. rewrite <- fval_mul, <- feq_z.
    destruct (Fp_dec p (fmul t t) u); cbn [fst snd]; now rewrite f0_val.
  - cbv zeta.
    assert (EN : (fval u * fval u + fval v * fval v) mod p = fval (fadd (fmul u u) (fmul v v))).
    { rewrite fval_add, !fval_mul. now rewrite Z.add_mod_idemp_l, Z.add_mod_idemp_r by (pose proof p_pos; lia). }
    rewrite EN, <- fval_pow.
    set (s := fpow _ ((p + 1) / 4)). 
    assert (EV : ((fval u + fval s) * zhalf) mod p = fval (fdiv (fadd u s) (mkF p 2))).
    { rewrite fval_half, fval_add. now rewrite Z.mul_mod_idemp_l by (pose proof p_pos; lia). }
    rewrite EV. set (w := fdiv (fadd u s) (mkF p 2)). rewrite <- fval_pow. set (t2 := fpow w _). rewrite <- (fval_mul w t2).
    set (t1 := fmul w t2). rewrite <- (fval_mul t1 t1), <- feq_z.
    assert (E1 : (fval t2 * fval v * zhalf) mod p = fval (fdiv (fmul t2 v) (mkF p 2))).
    { rewrite fval_half, fval_mul. now rewrite Z.mul_mod_idemp_l by (pose proof p_pos; lia). }
    rewrite E1. destruct (Fp_dec p w (fmul t1 t1)); reflexivity.
Qed.
Lemma zpair (a b : Z) (x y : Fp p) : a = fval x -> b = fval y -> (a, b) = (fval x, fval y). Proof. congruence. Qed.
Ltac zr := unfold zrep; cbn [fst snd]; apply zpair; cbn [fval fadd fsub fmul fopp mkF proj1_sig].
Local Notation F2 := (FP2 P HW Hp).
Lemma two_half (x : F2) : kdiv x (kadd k1 k1) = (fdiv (fst x) (mkF p 2), fdiv (snd x) (mkF p 2)).
Proof.
  rewrite (two_q P HW Hp). pose proof (two_ne0 P HW).
  change (qdiv FP x (q2 P HW Hp) = (fdiv (fst x) (mkF p 2), fdiv (snd x) (mkF p 2))).
  unfold qdiv, qmul, qinv, qnorm, q2; cbn [fst snd FpRep.FP FpF K kmul kadd ksub kopp kinv].
  f_equal; field; auto.
Qed.
Lemma zeq_ok (x y : F2) : (fval (fst x) =? fval (fst y)) && (fval (snd x) =? fval (snd y)) = if kdec x y then true else false.
Proof.
  destruct (kdec x y) as [->|N]; [now rewrite !Z.eqb_refl|]. apply andb_false_iff.
  destruct (Z.eqb_spec (fval (fst x)) (fval (fst y))) as [E|]; [right|now left]. apply Z.eqb_neq. intros E'. apply N.
  destruct x, y. cbn [fst snd] in *. f_equal; now apply Fp_ext.
Qed.
Ltac zm := rewrite ?Zplus_mod_idemp_l, ?Zplus_mod_idemp_r, ?Zminus_mod_idemp_l, ?Zminus_mod_idemp_r,
  ?Zmult_mod_idemp_l, ?Zmult_mod_idemp_r.
Lemma zadd_ok (x y : F2) : zadd (fval (fst x), fval (snd x)) (fval (fst y), fval (snd y)) = (fval (fst (kadd x y)), fval (snd (kadd x y))).
Proof. reflexivity. Qed.
Lemma zsub_ok (x y : F2) : zsub (fval (fst x), fval (snd x)) (fval (fst y), fval (snd y)) = (fval (fst (ksub x y)), fval (snd (ksub x y))).
Proof. reflexivity. Qed.
Lemma zmul_ok (x y : F2) : zmul (fval (fst x), fval (snd x)) (fval (fst y), fval (snd y)) = (fval (fst (kmul x y)), fval (snd (kmul x y))).
Proof.
  unfold zmul; cbn [fst snd]. apply zpair; cbn [fst snd K FpRep.FP2 FpRep.FP FpF QF kmul qmul kadd ksub].
  - change (fval (fsub ?a ?b)) with ((fval a - fval b) mod p). rewrite !fval_mul. now zm.
  - rewrite fval_add, !fval_mul. now zm.
Qed.
Lemma zinv_ok (x : F2) : (let n := zinv1 ((fval (fst x) * fval (fst x) + fval (snd x) * fval (snd x)) mod p) in
   ((fval (fst x) * n) mod p, (- fval (snd x) * n) mod p)) = (fval (fst (kinv x)), fval (snd (kinv x))).
Proof.
  cbv zeta. assert (E : (fval (fst x) * fval (fst x) + fval (snd x) * fval (snd x)) mod p = fval (fadd (fmul (fst x) (fst x)) (fmul (snd x) (snd x)))).
  { rewrite fval_add, !fval_mul. now zm. }
  rewrite E, <- fval_inv. apply zpair; cbn [fst snd K FpRep.FP2 FpRep.FP FpF QF kinv qinv qnorm kmul kadd kopp ksub].
  - now rewrite fval_mul.
  - rewrite fval_mul. change (fval (fopp ?a)) with ((- fval a) mod p). now zm.
Qed.
Definition z_sim : sim z_ops OF.
Proof.
  refine (mkSim z_ops OF (fun _ => zrep) zrep (fun _ => True) _ _ _ _ _ _ _ _ _ _ _ _ _ _ _ _ _ _ _ _ _ _ _);
    cbn [T z_ops field_ops fld_ops o_zero o_one o_unit o_add o_sub o_madd o_msub o_mul o_sqr o_neg o_inv o_div2
         o_add1 o_sqrt o_eq o_lt o_enc o_dec o_rand fst snd]; intros;
    repeat match goal with H : zrep _ ?x |- _ => unfold zrep in H; subst end; cbn [fst snd].
  - reflexivity.
  - reflexivity.
  - unfold zrep. apply zpair; symmetry; apply f0_val.
  - unfold zrep. apply zpair; symmetry; [apply f1_val|apply f0_val].
  - unfold zrep. apply zpair; cbn [fst snd]; [apply zof_ok|symmetry; apply f0_val].
  - apply zadd_ok.
  - apply zadd_ok.
  - apply zsub_ok.
  - apply zsub_ok.
  - apply zadd_ok.
  - apply zsub_ok.
  - apply zmul_ok.
  - unfold mul3. cbn [T z_ops field_ops fld_ops o_madd o_mul o_sqr]. now rewrite !zmul_ok, !zadd_ok, zmul_ok.
  - apply zmul_ok.
  - reflexivity.
  - apply zinv_ok.
  - rewrite two_half. unfold zrep. cbn [fst snd]. now rewrite !fval_half.
  - unfold zrep. apply zpair.
    + change (fval (fst (kadd x k1))) with ((fval (fst x) + 1 mod p) mod p). rewrite Z.mod_1_l; auto. pose proof p_ne2. lia.
    + change (snd (kadd x k1)) with (fadd (snd x) f0). now rewrite <- (add_0_r' P Hp).
  - now apply zsqrt_ok.
  - apply zeq_ok.
  - reflexivity.
  - reflexivity.
  - reflexivity.
Defined.
Lemma z_rand : rand_sim z_sim.
Proof.
  intros tp. cbn [z_ops field_ops fld_ops o_rand]. unfold zrand, qrand.
  destruct (_ <? _)%nat; constructor. split; auto.
  cbn [srel z_sim]. unfold zrep. cbn [fst snd]. now rewrite !zof_ok.
Qed.
End ZOps.
