(** Polynomials over a field, with Leibniz equality (proofs only; no code of /repo is modelled here). *)
From Coq Require Import Field Eqdep_dec.
From Verif Require Import Base Fld CurveSpec.
Set Bullet Behavior "Strict Subproofs".

Section Raw.
Variable F : fld.
Local Open Scope fld_scope.
Definition kth30 := kth F.
Add Field KF30 : kth30.
Implicit Types (l m : list F) (c x y : F).
Definition coef l (n : nat) : F := nth n l 0.
Fixpoint radd l m : list F :=
  match l, m with [], _ => m | _, [] => l | c :: l, d :: m => (c + d) :: radd l m end.
Definition rscale c l : list F := map (fun x => c * x) l.
Fixpoint rmul l m : list F := match l with [] => [] | c :: l => radd (rscale c m) (0 :: rmul l m) end.
Fixpoint norm l : list F :=
  match l with
  | [] => []
  | c :: l => match norm l with [] => if kdec c 0 then [] else [c] | m => c :: m end
  end.
Definition shf (f : nat -> F) (n : nat) : F := match n with O => 0 | S n => f n end.
Lemma coef_nil n : coef [] n = 0. Proof. now destruct n. Qed.
Lemma coef_sh l n : coef (0 :: l) n = shf (coef l) n. Proof. now destruct n. Qed.
Lemma coef_add l m n : coef (radd l m) n = coef l n + coef m n.
Proof.
  revert m n. induction l as [|c l IH]; intros [|d m] n; cbn [radd]; rewrite ?coef_nil; try ring.
  destruct n; cbn; [reflexivity|]. apply IH.
Qed.
Lemma coef_scale c l n : coef (rscale c l) n = c * coef l n.
Proof. revert n. induction l as [|d l IH]; intros n; cbn [rscale map]; [rewrite !coef_nil; ring|]. destruct n; cbn; [reflexivity|apply IH]. Qed.
Lemma coef_cons c l m n : coef (rmul (c :: l) m) n = c * coef m n + shf (coef (rmul l m)) n.
Proof. cbn [rmul]. rewrite coef_add, coef_scale, coef_sh. reflexivity. Qed.
Lemma shf_add f g n : shf (fun n => f n + g n) n = shf f n + shf g n. Proof. destruct n; cbn; ring. Qed.
Lemma shf_mul c f n : shf (fun n => c * f n) n = c * shf f n. Proof. destruct n; cbn; ring. Qed.
Lemma shf_ext f g n : (forall n, f n = g n) -> shf f n = shf g n. Proof. intros H. destruct n; cbn; auto. Qed.
Lemma mul_addr l m m' n : coef (rmul l (radd m m')) n = coef (rmul l m) n + coef (rmul l m') n.
Proof.
  revert n. induction l as [|c l IH]; intros n; [cbn [rmul]; rewrite !coef_nil; ring|].
  rewrite !coef_cons, coef_add, (shf_ext _ _ n IH), shf_add. ring.
Qed.
Lemma mul_addl l l' m n : coef (rmul (radd l l') m) n = coef (rmul l m) n + coef (rmul l' m) n.
Proof.
  revert l' n. induction l as [|c l IH]; intros [|d l'] n; cbn [radd]; try (cbn [rmul]; rewrite !coef_nil; ring).
  rewrite !coef_cons, (shf_ext _ _ n (IH l')), shf_add. ring.
Qed.
Lemma mul_scale c l m n : coef (rmul (rscale c l) m) n = c * coef (rmul l m) n.
Proof.
  revert n. induction l as [|d l IH]; intros n; [cbn [rscale map rmul]; rewrite !coef_nil; ring|].
  change (rscale c (d :: l)) with ((c * d) :: rscale c l). rewrite !coef_cons, (shf_ext _ _ n IH), shf_mul. ring.
Qed.
Lemma mul_nil l n : coef (rmul l []) n = 0.
Proof.
  revert n. induction l as [|c l IH]; intros n; [apply coef_nil|]. rewrite coef_cons, coef_nil. destruct n; cbn [shf]; [ring|]. rewrite IH. ring.
Qed.
Lemma mul_consr l c m n : coef (rmul l (c :: m)) n = c * coef l n + shf (coef (rmul l m)) n.
Proof.
  revert n. induction l as [|d l IH]; intros n; [cbn [rmul]; rewrite coef_nil; destruct n; cbn [shf]; rewrite ?coef_nil; ring|].
  rewrite coef_cons. destruct n as [|n]; cbn [shf].
  - cbn. ring.
  - rewrite IH. change (coef (d :: l) (S n)) with (coef l n). change (coef (c :: m) (S n)) with (coef m n). rewrite coef_cons. destruct n; cbn [shf]; ring.
Qed.
Lemma mul_comm l m n : coef (rmul l m) n = coef (rmul m l) n.
Proof.
  revert n. induction l as [|c l IH]; intros n; [rewrite mul_nil; apply coef_nil|]. rewrite coef_cons, mul_consr, (shf_ext _ _ n IH). reflexivity.
Qed.
Lemma mul_sh l m n : coef (rmul (0 :: l) m) n = shf (coef (rmul l m)) n. Proof. rewrite coef_cons. ring. Qed.
Lemma mul_assoc l m k n : coef (rmul (rmul l m) k) n = coef (rmul l (rmul m k)) n.
Proof.
  revert n. induction l as [|c l IH]; intros n; [reflexivity|]. rewrite coef_cons. cbn [rmul].
  rewrite mul_addl, mul_scale, mul_sh, (shf_ext _ _ n IH). reflexivity.
Qed.
Lemma mul_ext l l' m n : (forall n, coef l n = coef l' n) -> coef (rmul l m) n = coef (rmul l' m) n.
Proof. intros H. revert n. induction m as [|c m IH]; intros n; [now rewrite !mul_nil|]. rewrite !mul_consr, H, (shf_ext _ _ n IH). reflexivity. Qed.
Lemma mul_ext' l l' m m' n : (forall n, coef l n = coef l' n) -> (forall n, coef m n = coef m' n) -> coef (rmul l m) n = coef (rmul l' m') n.
Proof. intros H H'. rewrite (mul_ext l l' m n H), mul_comm, (mul_ext m m' l' n H'). apply mul_comm. Qed.
Lemma coef_norm l n : coef (norm l) n = coef l n.
Proof.
  revert n. induction l as [|c l IH]; intros n; [reflexivity|]. cbn [norm]. destruct (norm l) as [|d m].
  - destruct (kdec c 0) as [->|N]; destruct n as [|n]; cbn; try reflexivity; try (rewrite <- IH; now rewrite coef_nil).
    + specialize (IH n). rewrite coef_nil in IH. unfold coef in IH. rewrite <- IH. now destruct n.
    + specialize (IH n). rewrite coef_nil in IH. unfold coef in IH. rewrite <- IH. now destruct n.
  - destruct n as [|n]; [reflexivity|]. exact (IH n).
Qed.
Lemma norm_ext l m : (forall n, coef l n = coef m n) -> norm l = norm m.
Proof.
  revert m. assert (Z : forall m, (forall n, coef m n = 0) -> norm m = []).
  { induction m as [|c m IH]; intros H; [reflexivity|]. cbn [norm]. rewrite IH by (intros n; exact (H (S n))).
    destruct (kdec c 0) as [|N]; [reflexivity|]. exfalso. apply N. exact (H O). }
  induction l as [|c l IH]; intros m H.
  - symmetry. apply Z. intros n. rewrite <- H. apply coef_nil.
  - destruct m as [|d m]; [apply Z; intros n; rewrite H; apply coef_nil|].
    cbn [norm]. rewrite (IH m) by (intros n; exact (H (S n))). pose proof (H O) as E. cbn in E. subst d. reflexivity.
Qed.
Lemma norm_norm l : norm (norm l) = norm l. Proof. apply norm_ext, coef_norm. Qed.
(** The top coefficient of a product. *)
Lemma mul_top l m a b : (forall i, (a < i)%nat -> coef l i = 0) -> (forall i, (b < i)%nat -> coef m i = 0) ->
  coef (rmul l m) (a + b) = coef l a * coef m b /\ forall i, (a + b < i)%nat -> coef (rmul l m) i = 0.
Proof.
  revert a. induction l as [|c l IH]; intros a Hl Hm.
  - split; intros; cbn [rmul]; rewrite !coef_nil; [ring|reflexivity].
  - destruct a as [|a].
    + assert (Z : forall n, coef (rmul l m) n = 0).
      { intros n. rewrite (mul_ext l [] m n); [apply coef_nil|]. intros k. rewrite coef_nil. exact (Hl (S k) ltac:(lia)). }
      split; [|intros i Hi]; rewrite coef_cons.
      * cbn [Nat.add]. change (coef (c :: l) 0) with c. destruct b; cbn [shf]; [ring|]. rewrite Z. ring.
      * rewrite Hm by lia. destruct i; cbn [shf]; [ring|]. rewrite Z. ring.
    + destruct (IH a (fun i Hi => Hl (S i) ltac:(lia)) Hm) as [I1 I2]. split; [|intros i Hi]; rewrite coef_cons.
      * cbn [Nat.add shf]. rewrite Hm by lia. change (coef (c :: l) (S a)) with (coef l a). rewrite I1. ring.
      * rewrite Hm by lia. destruct i as [|i]; cbn [shf]; [lia|]. rewrite I2 by lia. ring.
Qed.
Lemma coef_len l i : (length l <= i)%nat -> coef l i = 0. Proof. intros H. now apply nth_overflow. Qed.
Lemma norm_last c l : norm (c :: l) = c :: l -> coef (c :: l) (length l) <> 0.
Proof.
  revert c. induction l as [|d l IH]; intros c H.
  - cbn in *. destruct (kdec c 0); [discriminate|auto].
  - change (coef (c :: d :: l) (length (d :: l))) with (coef (d :: l) (length l)). apply IH.
    cbn [norm] in H. change (match norm l with [] => if kdec d 0 then [] else [d] | f :: m => d :: f :: m end) with (norm (d :: l)) in H.
    destruct (norm (d :: l)) as [|e m]; [destruct (kdec c 0); discriminate|]. congruence.
Qed.
(** ** Polynomials *)
Definition ldec : forall l m : list F, {l = m} + {l <> m} := list_eq_dec kdec.
Definition isn l : bool := if ldec (norm l) l then true else false.
Lemma isn_norm l : isn (norm l) = true.
Proof. unfold isn. destruct (ldec (norm (norm l)) (norm l)) as [|N]; [reflexivity|]. exfalso. apply N, norm_norm. Qed.
Definition poly : Type := { l : list F | isn l = true }.
Definition mk l : poly := exist _ (norm l) (isn_norm l).
Definition cs (P : poly) : list F := proj1_sig P.
Definition cf (P : poly) n : F := coef (cs P) n.
Lemma cs_norm P : norm (cs P) = cs P.
Proof. destruct P as [l H]. cbn. unfold isn in H. destruct (ldec (norm l) l); [auto|discriminate]. Qed.
Lemma cs_inj P Q : cs P = cs Q -> P = Q.
Proof. destruct P as [l H], Q as [m H']. cbn. intros ->. f_equal. apply UIP_dec. decide equality. Qed.
Lemma p_ext P Q : (forall n, cf P n = cf Q n) -> P = Q.
Proof. intros H. apply cs_inj. rewrite <- (cs_norm P), <- (cs_norm Q). now apply norm_ext. Qed.
Lemma cf_mk l n : cf (mk l) n = coef l n. Proof. apply coef_norm. Qed.
Definition pdec (P Q : poly) : {P = Q} + {P <> Q}.
Proof. destruct (ldec (cs P) (cs Q)) as [E|N]; [left; now apply cs_inj|right; congruence]. Defined.
Definition pO : poly := mk [].
Definition pC c : poly := mk [c].
Definition pI : poly := pC 1.
Definition px : poly := mk [0; 1].
Definition pa P Q : poly := mk (radd (cs P) (cs Q)).
Definition pm P Q : poly := mk (rmul (cs P) (cs Q)).
Definition po P : poly := mk (rscale (- (1)) (cs P)).
Definition ps P Q : poly := pa P (po Q).
Lemma cf_a P Q n : cf (pa P Q) n = cf P n + cf Q n. Proof. unfold pa. rewrite cf_mk. apply coef_add. Qed.
Lemma cf_o P n : cf (po P) n = - cf P n. Proof. unfold po. rewrite cf_mk, coef_scale. unfold cf. ring. Qed.
Lemma cf_s P Q n : cf (ps P Q) n = cf P n - cf Q n. Proof. unfold ps. rewrite cf_a, cf_o. ring. Qed.
Lemma cf_O n : cf pO n = 0. Proof. unfold pO. rewrite cf_mk. apply coef_nil. Qed.
Lemma cf_C c n : cf (pC c) n = match n with O => c | _ => 0 end.
Proof. unfold pC. rewrite cf_mk. destruct n as [|[|n]]; reflexivity. Qed.
Lemma cf_m P Q n : cf (pm P Q) n = coef (rmul (cs P) (cs Q)) n. Proof. apply cf_mk. Qed.
Lemma pring : ring_theory pO pI pa pm ps po (@eq poly).
Proof.
  split.
  - intros x. apply p_ext. intros n. rewrite cf_a, cf_O. ring.
  - intros x y. apply p_ext. intros n. rewrite !cf_a. ring.
  - intros x y z. apply p_ext. intros n. rewrite !cf_a. ring.
  - intros x. apply p_ext. intros n. rewrite cf_m. rewrite (mul_ext _ [1] (cs x) n) by (intros k; exact (cf_mk [1] k)).
    rewrite coef_cons. cbn [rmul]. unfold cf. destruct n; cbn [shf]; rewrite ?coef_nil; ring.
  - intros x y. apply p_ext. intros n. rewrite !cf_m. apply mul_comm.
  - intros x y z. apply p_ext. intros n. rewrite !cf_m.
    rewrite (mul_ext' (cs x) (cs x) (cs (pm y z)) (rmul (cs y) (cs z))), (mul_ext' (cs (pm x y)) (rmul (cs x) (cs y)) (cs z) (cs z)); auto.
    + symmetry. apply mul_assoc.
    + intros k. apply cf_m.
    + intros k. apply cf_m.
  - intros x y z. apply p_ext. intros n. rewrite cf_a, !cf_m. rewrite (mul_ext (cs (pa x y)) (radd (cs x) (cs y))) by (intros k; apply cf_mk). apply mul_addl.
  - intros x y. reflexivity.
  - intros x. apply p_ext. intros n. rewrite cf_a, cf_o, cf_O. ring.
Qed.
End Raw.
Arguments poly _ : clear implicits.
Arguments cf {F}. Arguments cs {F}. Arguments pO {F}. Arguments pI {F}. Arguments px {F}. Arguments pC {F}. Arguments pa {F}. Arguments pm {F}. Arguments po {F}. Arguments ps {F}.
Declare Scope poly_scope. Delimit Scope poly_scope with P. Bind Scope poly_scope with poly.
Notation "x + y" := (pa x y) : poly_scope. Notation "x * y" := (pm x y) : poly_scope.
Notation "x - y" := (ps x y) : poly_scope. Notation "- x" := (po x) : poly_scope.
Notation "0" := pO : poly_scope. Notation "1" := pI : poly_scope.

Section Deg.
Variable F : fld.
Definition kth31 := kth F.
Add Field KF31 : kth31.
Definition prth := pring F.
Add Ring PR31 : prth.
Local Open Scope poly_scope.
Implicit Types (P Q R D : poly F) (c : F) (n : nat).
Definition sz P : nat := length (cs P).
Definition lc P : F := cf P (sz P - 1).
Lemma cf_big P i : (sz P <= i)%nat -> cf P i = k0. Proof. apply coef_len. Qed.
Lemma sz_O : sz 0 = 0%nat. Proof. reflexivity. Qed.
Lemma sz_z P : sz P = 0%nat -> P = 0.
Proof. unfold sz. intros H. apply cs_inj. destruct (cs P) eqn:E; [|discriminate]. reflexivity. Qed.
Lemma sz_pos P : P <> 0 -> (1 <= sz P)%nat.
Proof. intros N. destruct (sz P) as [|k] eqn:E; [|lia]. exfalso. apply N, sz_z, E. Qed.
Lemma lc_nz P : P <> 0 -> lc P <> k0.
Proof.
  intros N. unfold lc, cf, sz. pose proof (cs_norm F P) as H. destruct (cs P) as [|c l] eqn:E.
  - exfalso. apply N, sz_z. unfold sz. rewrite E. reflexivity.
  - cbn [length]. rewrite Nat.sub_succ, Nat.sub_0_r. now apply norm_last.
Qed.
Lemma sz_le P n : (forall i, (n <= i)%nat -> cf P i = k0) -> (sz P <= n)%nat.
Proof.
  intros H. destruct (pdec F P 0) as [->|N]; [rewrite sz_O; lia|]. destruct (le_lt_dec (sz P) n) as [|X]; [auto|].
  exfalso. apply (lc_nz P N). apply H. lia.
Qed.
Lemma nz_cf P n : cf P n <> k0 -> P <> 0. Proof. intros H E. apply H. rewrite E. apply cf_O. Qed.
Lemma sz_is P n : cf P n <> k0 -> (forall i, (n < i)%nat -> cf P i = k0) -> sz P = S n.
Proof.
  intros N H. assert ((sz P <= S n)%nat) by (apply sz_le; intros; apply H; lia).
  destruct (le_lt_dec (sz P) n) as [X|]; [|lia]. exfalso. apply N. apply cf_big. lia.
Qed.
Lemma cf_top P Q a b : (forall i, (a < i)%nat -> cf P i = k0) -> (forall i, (b < i)%nat -> cf Q i = k0) ->
  cf (P * Q) (a + b) = kmul (cf P a) (cf Q b) /\ forall i, (a + b < i)%nat -> cf (P * Q) i = k0.
Proof. intros HP HQ. destruct (mul_top F (cs P) (cs Q) a b HP HQ) as [H1 H2]. split; [rewrite cf_m; exact H1|intros i Hi; rewrite cf_m; auto]. Qed.
Lemma sz_m P Q : P <> 0 -> Q <> 0 -> P * Q <> 0 /\ (sz (P * Q) + 1 = sz P + sz Q)%nat /\ lc (P * Q) = kmul (lc P) (lc Q).
Proof.
  intros NP NQ. pose proof (sz_pos P NP). pose proof (sz_pos Q NQ). pose proof (lc_nz P NP) as LP. pose proof (lc_nz Q NQ) as LQ.
  destruct (cf_top P Q (sz P - 1) (sz Q - 1)) as [T1 T2]; [intros; apply cf_big; lia|intros; apply cf_big; lia|].
  fold (lc P) in T1. fold (lc Q) in T1.
  assert (NT : cf (P * Q) (sz P - 1 + (sz Q - 1)) <> k0).
  { rewrite T1. intros E. apply LP. transitivity (kdiv (kmul (lc P) (lc Q)) (lc Q)); [field; auto|]. rewrite E. field. auto. }
  split; [exact (nz_cf _ _ NT)|]. pose proof (sz_is _ _ NT T2) as S1. split; [lia|]. unfold lc at 1. rewrite S1.
  replace (S (sz P - 1 + (sz Q - 1)) - 1)%nat with (sz P - 1 + (sz Q - 1))%nat by lia. exact T1.
Qed.
Lemma dom P Q : P * Q = 0 -> P = 0 \/ Q = 0.
Proof. intros E. destruct (pdec F P 0) as [|N]; [auto|]. destruct (pdec F Q 0) as [|N']; [auto|]. exfalso. apply (sz_m P Q N N'). exact E. Qed.
Lemma m_nz P Q : P <> 0 -> Q <> 0 -> P * Q <> 0. Proof. intros H H'. now apply sz_m. Qed.
Lemma pcancel P Q R : R <> 0 -> P * R = Q * R -> P = Q.
Proof.
  intros N E. assert (X : (P - Q) * R = 0) by (transitivity (P * R - Q * R); [ring|]; rewrite E; ring).
  destruct (dom _ _ X) as [Y|]; [|contradiction]. transitivity (P - Q + Q); [ring|]. rewrite Y. ring.
Qed.
Lemma sz_a P Q n : (sz P <= n)%nat -> (sz Q <= n)%nat -> (sz (P + Q) <= n)%nat.
Proof. intros H H'. apply sz_le. intros i Hi. rewrite cf_a, !cf_big by lia. ring. Qed.
Lemma sz_o P : sz (- P) = sz P.
Proof.
  assert (G : forall P, (sz (- P) <= sz P)%nat). { intros R. apply sz_le. intros i Hi. rewrite cf_o, cf_big by lia. ring. }
  pose proof (G P). pose proof (G (- P)) as H'. replace (- - P) with P in H' by ring. lia.
Qed.
Lemma sz_s P Q n : (sz P <= n)%nat -> (sz Q <= n)%nat -> (sz (P - Q) <= n)%nat.
Proof. intros H H'. unfold ps. apply sz_a; auto. now rewrite sz_o. Qed.
Lemma sz_lt P Q : (sz Q < sz P)%nat -> sz (P + Q) = sz P /\ lc (P + Q) = lc P.
Proof.
  intros H. assert (NP : P <> 0) by (intros ->; rewrite sz_O in H; lia). pose proof (lc_nz P NP) as L.
  assert (T : cf (P + Q) (sz P - 1) = lc P) by (rewrite cf_a, (cf_big Q) by lia; unfold lc; ring).
  assert (E : sz (P + Q) = S (sz P - 1)).
  { apply sz_is; [rewrite T; auto|]. intros i Hi. rewrite cf_a, !cf_big by lia. ring. }
  split; [lia|]. unfold lc at 1. rewrite E. replace (S (sz P - 1) - 1)%nat with (sz P - 1)%nat by lia. exact T.
Qed.
Lemma sz_C c : c <> k0 -> sz (pC c) = 1%nat.
Proof. intros N. apply sz_is; [rewrite cf_C; auto|]. intros [|i] Hi; [lia|]. now rewrite cf_C. Qed.
Lemma C_nz c : c <> k0 -> pC c <> 0. Proof. intros N. apply (nz_cf _ 0). now rewrite cf_C. Qed.
Lemma one_nz0 : (k1 : F) <> k0. Proof. apply (Field_theory.F_1_neq_0 (kth F)). Qed.
Lemma sz_I : sz 1 = 1%nat. Proof. apply sz_C, one_nz0. Qed.
Lemma I_nz : (1 : poly F) <> 0. Proof. apply C_nz, one_nz0. Qed.
Lemma sz1 P : (sz P <= 1)%nat -> P = pC (cf P 0).
Proof. intros H. apply p_ext. intros n. rewrite cf_C. destruct n; [reflexivity|]. apply cf_big. lia. Qed.
Lemma C_add (a b : F) : pC (kadd a b) = pC a + pC b. Proof. apply p_ext. intros n. rewrite cf_a, !cf_C. destruct n; ring. Qed.
Lemma C_mul (a b : F) : pC (kmul a b) = pC a * pC b.
Proof.
  destruct (cf_top (pC a) (pC b) 0 0) as [H1 H2]; try (intros [|i] Hi; [lia|]; now rewrite cf_C).
  apply p_ext. intros [|n]; [|rewrite H2 by lia; now rewrite cf_C]. rewrite cf_C. change 0%nat with (0 + 0)%nat. rewrite H1, !cf_C. reflexivity.
Qed.
Lemma C_0 : pC (k0 : F) = 0. Proof. apply p_ext. intros n. rewrite cf_C, cf_O. now destruct n. Qed.
Lemma C_opp (a : F) : pC (kopp a) = - pC a. Proof. apply p_ext. intros n. rewrite cf_o, !cf_C. destruct n; ring. Qed.
Lemma C_inj (a b : F) : pC a = pC b -> a = b.
Proof. intros E. pose proof (f_equal (fun P => cf P 0) E) as X. cbn beta in X. now rewrite !cf_C in X. Qed.
Lemma cf_x n : cf (px : poly F) n = match n with 1%nat => k1 | _ => k0 end.
Proof. unfold px. rewrite cf_mk. destruct n as [|[|[|n]]]; reflexivity. Qed.
Lemma sz_x : sz px = 2%nat.
Proof. apply sz_is; [rewrite cf_x; apply one_nz0|]. intros [|[|i]] Hi; try lia. now rewrite cf_x. Qed.
Lemma x_nz : (px : poly F) <> 0. Proof. apply (nz_cf _ 1). rewrite cf_x. apply one_nz0. Qed.
(** ** Division *)
Definition dvd D P : Prop := exists Q, P = Q * D.
Definition mon c (k : nat) : poly F := mk F (repeat k0 k ++ [c]).
Lemma cf_mon c k n : cf (mon c k) n = if Nat.eqb n k then c else k0.
Proof.
  unfold mon. rewrite cf_mk. unfold coef. destruct (Nat.eqb_spec n k) as [->|N].
  - rewrite app_nth2; rewrite repeat_length; [|lia]. now rewrite Nat.sub_diag.
  - destruct (le_lt_dec k n).
    + rewrite app_nth2; rewrite repeat_length; [|lia]. destruct (n - k)%nat as [|j] eqn:E; [lia|]. cbn. now destruct j.
    + rewrite app_nth1 by (rewrite repeat_length; lia). apply nth_repeat.
Qed.
Lemma divide D : D <> 0 -> forall n P, (sz P <= n)%nat -> { QR : poly F * poly F | P = fst QR * D + snd QR /\ (sz (snd QR) < sz D)%nat }.
Proof.
  intros ND. pose proof (sz_pos D ND) as HD. pose proof (lc_nz D ND) as LD. induction n as [|n IH]; intros P HP.
  - exists (0, P). cbn. split; [ring|lia].
  - destruct (le_lt_dec (sz D) (sz P)) as [H|H]; [|exists (0, P); cbn; split; [ring|lia]].
    set (M := mon (kdiv (lc P) (lc D)) (sz P - sz D)).
    destruct (IH (P - M * D)) as [[Q R] [E1 E2]].
    + destruct (cf_top M D (sz P - sz D) (sz D - 1)) as [T1 T2].
      { intros i Hi. unfold M. rewrite cf_mon. destruct (Nat.eqb_spec i (sz P - sz D)); [lia|reflexivity]. }
      { intros i Hi. apply cf_big. lia. }
      apply sz_le. intros i Hi. rewrite cf_s. destruct (le_lt_dec (sz P) i) as [G|G].
      * rewrite T2 by lia. rewrite cf_big by lia. ring.
      * replace i with (sz P - sz D + (sz D - 1))%nat by lia. rewrite T1. unfold M. rewrite cf_mon, Nat.eqb_refl. fold (lc D).
        replace (sz P - sz D + (sz D - 1))%nat with (sz P - 1)%nat by lia. fold (lc P). field. auto.
    + exists (Q + M, R). cbn [fst snd] in *. split; [|auto]. transitivity (P - M * D + M * D); [ring|]. rewrite E1. ring.
Qed.
Lemma gcd_ex : forall n P Q, (sz Q <= n)%nat -> { g : poly F | (exists a b, g = a * P + b * Q) /\ dvd g P /\ dvd g Q }.
Proof.
  induction n as [|n IH]; intros P Q HQ.
  - assert (E : Q = 0) by (apply sz_z; lia). exists P. split; [exists 1, 0; ring|]. split; [exists 1; ring|exists 0; rewrite E; ring].
  - destruct (pdec F Q 0) as [E|N]; [exists P; split; [exists 1, 0; ring|]; split; [exists 1; ring|exists 0; rewrite E; ring]|].
    destruct (divide Q N (sz P) P (le_n _)) as [[D R] [E1 E2]]. cbn [fst snd] in *.
    destruct (IH Q R ltac:(lia)) as [g Hg]. exists g. destruct Hg as [(a & b & Eg) [[u Hu] [v Hv]]]. split; [|split].
    + exists b, (a - b * D). rewrite Eg, E1. ring.
    + exists (u * D + v). rewrite E1, Hu, Hv at 1. ring.
    + exists u. exact Hu.
Qed.
Definition cop P Q : Prop := exists a b, a * P + b * Q = 1.
Lemma cop_sym P Q : cop P Q -> cop Q P. Proof. intros (a & b & E). exists b, a. rewrite <- E. ring. Qed.
Lemma euclid D P Q : cop D P -> dvd D (P * Q) -> dvd D Q.
Proof. intros (a & b & E) [u Hu]. exists (a * Q + b * u). transitivity ((a * D + b * P) * Q); [rewrite E; ring|]. transitivity (a * D * Q + b * (P * Q)); [ring|]. rewrite Hu. ring. Qed.
Lemma cop_m P Q R : cop P R -> cop Q R -> cop (P * Q) R.
Proof.
  intros (a & b & E) (c & d & E'). exists (a * c), (a * P * d + b * c * Q + b * d * R). transitivity ((a * P + b * R) * (c * Q + d * R)); [ring|]. rewrite E, E'. ring.
Qed.
Lemma cop_dvd P Q R : cop P Q -> dvd R P -> cop R Q.
Proof. intros (a & b & E) [u ->]. exists (a * u), b. rewrite <- E. ring. Qed.
Lemma dvd_sz D P : P <> 0 -> dvd D P -> (sz D <= sz P)%nat /\ D <> 0.
Proof.
  intros N [Q ->]. assert (NQ : Q <> 0) by (intros ->; apply N; ring). assert (ND : D <> 0) by (intros ->; apply N; ring).
  destruct (sz_m Q D NQ ND) as (_ & E & _). pose proof (sz_pos Q NQ). split; [lia|auto].
Qed.
Lemma dvd_one D : dvd D 1 -> sz D = 1%nat /\ D = pC (cf D 0) /\ cf D 0 <> k0.
Proof.
  intros H. destruct (dvd_sz D 1 I_nz H) as [S1 N]. rewrite sz_I in S1. pose proof (sz_pos D N). split; [lia|]. pose proof (sz1 D S1) as E. split; [exact E|].
  intros Z. apply N. rewrite E, Z. apply C_0.
Qed.
Lemma dvd_both D E : D <> 0 -> lc D = k1 -> lc E = k1 -> dvd D E -> dvd E D -> D = E.
Proof.
  intros N L1 L2 [u Hu] [v Hv]. assert (X : u * v = 1).
  { apply (pcancel _ _ D N). transitivity (v * E); [rewrite Hu; ring|]. rewrite <- Hv. ring. }
  assert (NE : E <> 0) by (intros Z; apply N; rewrite Hv, Z; ring).
  destruct (dvd_one u) as (_ & Eu & Nu); [exists v; rewrite <- X; ring|].
  assert (NU : u <> 0) by (rewrite Eu; now apply C_nz).
  destruct (sz_m u D NU N) as (_ & S1 & L). rewrite <- Hu, L1, L2 in L.
  assert (LU : lc u = cf u 0). { unfold lc. replace (sz u) with 1%nat; [reflexivity|]. rewrite Eu. symmetry. now apply sz_C. }
  assert (C1 : cf u 0 = k1). { rewrite <- LU. transitivity (kmul (lc u) k1); [ring|]. symmetry. exact L. }
  rewrite Hu, Eu, C1. change (D = 1 * D). ring.
Qed.
(** ** Fractions in lowest terms *)
Definition lowest (n d : poly F) : Prop := cop n d /\ lc d = k1.
Lemma lc_1_nz D : lc D = k1 -> D <> 0.
Proof. intros E ->. apply one_nz0. rewrite <- E. unfold lc. apply cf_O. Qed.
Lemma lowest_uniq (n d n' d' : poly F) : lowest n d -> lowest n' d' -> n * d' = n' * d -> n = n' /\ d = d'.
Proof.
  intros [C L] [C' L'] E. pose proof (lc_1_nz d L) as N. pose proof (lc_1_nz d' L') as N'.
  assert (d = d').
  { apply dvd_both; auto.
    - apply (euclid d n d'); [now apply cop_sym|]. exists n'. exact E.
    - apply (euclid d' n' d); [now apply cop_sym|]. exists n. symmetry. exact E. }
  subst d'. split; [|reflexivity]. apply (pcancel n n' d N E).
Qed.
Lemma reduce (n d : poly F) : d <> 0 -> { x : poly F * poly F | lowest (fst x) (snd x) /\ n * snd x = fst x * d }.
Proof.
  intros N. destruct (gcd_ex (sz d) n d (le_n _)) as [g [HB [Hn Hd]]].
  destruct (pdec F g 0) as [->|Ng]. { exfalso. destruct Hd as [v Hv]. apply N. rewrite Hv. ring. }
  destruct (divide g Ng (sz n) n (le_n _)) as [[u R] [E1 E2]]. destruct (divide g Ng (sz d) d (le_n _)) as [[v R'] [E1' E2']]. cbn [fst snd] in *.
  assert (Z : forall P D R, (sz R < sz g)%nat -> P = D * g + R -> dvd g P -> R = 0).
  { clear - Ng. intros P D R H E [w Hw]. destruct (pdec F R 0) as [|NR]; [auto|]. exfalso. assert (X : dvd g R).
    { exists (w - D). transitivity (D * g + R - D * g); [ring|]. rewrite <- E, Hw. ring. }
    destruct (dvd_sz g R NR X). lia. }
  pose proof (Z n u R E2 E1 Hn) as R0. pose proof (Z d v R' E2' E1' Hd) as R0'. subst R R'.
  assert (En : n = u * g) by (rewrite E1 at 1; ring). assert (Ed : d = v * g) by (rewrite E1' at 1; ring).
  assert (Nv : v <> 0) by (intros ->; apply N; rewrite Ed; ring). pose proof (lc_nz v Nv) as Lv.
  set (c := kdiv k1 (lc v)). assert (Nc : c <> k0). { unfold c. intros X. apply one_nz0. transitivity (kmul (kdiv k1 (lc v)) (lc v)); [field; auto|]. rewrite X. ring. }
  assert (Ic : pC c * pC (lc v) = 1). { rewrite <- C_mul. unfold c. replace (kmul (kdiv k1 (lc v)) (lc v)) with (k1 : F) by (field; auto). reflexivity. }
  exists (pC c * u, pC c * v). cbn [fst snd]. split; [split|].
  - destruct HB as (a & b & Eg). exists (a * pC (lc v)), (b * pC (lc v)).
    transitivity (pC c * pC (lc v) * (a * u + b * v)); [ring|]. rewrite Ic. apply (pcancel _ _ g Ng). transitivity (a * (u * g) + b * (v * g)); [ring|]. rewrite <- En, <- Ed, <- Eg. ring.
  - destruct (sz_m (pC c) v (C_nz c Nc) Nv) as (_ & _ & L). rewrite L. unfold lc at 1. rewrite (sz_C c Nc). cbn [Nat.sub]. rewrite cf_C. unfold c. field. auto.
  - rewrite En, Ed. ring.
Qed.
End Deg.
