(** Well-formedness of a parameter set: what the arithmetic relies on, as a boolean check
    on the literal tables, and the eight instances of /repo (four primes, two digit widths). *)
From Verif Require Import Base BaseP Digits DigitsP CombaP Params.

Definition par_p (P : params) : Z := valB (2 ^ radix P) (w_p P).
Definition par_R (P : params) : Z := (2 ^ radix P) ^ Z.of_nat (nwords P).

Definition table_ok (P : params) (l : list Z) : bool :=
  (length l =? nwords P)%nat && forallb (fun d => (0 <=? d) && (d <? 2 ^ radix P)) l.

(** The exponent computed by the addition chain of fpinv_chain_mont; [None] if the chain reads
    a table entry that was never written. *)
Definition exp_mul (t : list (option Z)) (e : option Z) (s : chain_step) : option Z :=
  let '(k, m) := s in
  match e, m with
  | Some e, None => Some (2 ^ Z.of_nat k * e + 1)
  | Some e, Some i => match nth i t None with Some f => Some (2 ^ Z.of_nat k * e + f) | None => None end
  | None, _ => None
  end.
Definition chain_exp (P : params) : option Z :=
  let t := upd 0 (Some 3) (repeat None (inv_size P)) in
  let t := fold_left (fun t '(i, j) =>
             upd j (match nth i t None with Some f => Some (f + 2) | None => None end) t) (inv_table P) t in
  let e := fold_left (exp_mul t) (inv_steps P) (Some 1) in
  let '(k, body) := inv_loop P in
  Nat.iter k (fun e => fold_left (exp_mul t) body e) e.
Definition oeqb (a : option Z) (b : Z) : bool := match a with Some x => x =? b | None => false end.

Definition wf_check (P : params) : bool :=
  oeqb (chain_exp P) ((par_p P - 3) / 4) &&
  (4 <=? radix P) && (radix P mod 8 =? 0) && (1 <=? nwords P)%nat && (nwords P <=? 100)%nat
  && (Z.of_nat (nwords P) <? 2 ^ radix P)
  && (1 <=? zwords P)%nat && (zwords P <=? nwords P)%nat
  && table_ok P (w_p P) && table_ok P (w_px2 P) && table_ok P (w_px4 P) && table_ok P (w_pp1 P)
  && table_ok P (w_R2 P) && table_ok P (w_one P)
  && forallb (fun d => d =? 0) (firstn (zwords P) (w_pp1 P))
  && (par_p P + 1 =? 2 ^ Z.of_nat (e2 P) * 3 ^ Z.of_nat (e3 P)) && (2 <=? e2 P)%nat && (1 <=? e3 P)%nat
  && (valB (2 ^ radix P) (w_px2 P) =? 2 * par_p P)
  && (valB (2 ^ radix P) (w_px4 P) =? 4 * par_p P)
  && (valB (2 ^ radix P) (w_pp1 P) =? par_p P + 1)
  && (valB (2 ^ radix P) (w_R2 P) =? (par_R P * par_R P) mod par_p P)
  && (valB (2 ^ radix P) (w_one P) =? par_R P mod par_p P)
  && (256 * par_p P <=? par_R P)
  && (2 ^ (nbits P - 1) <=? par_p P) && (par_p P <? 2 ^ nbits P) && (0 <? nbits P)
  && ((nwords P - 1) * Z.to_nat (radix P / 8) <=? fp_bytes P)%nat
  && (fp_bytes P <=? nwords P * Z.to_nat (radix P / 8))%nat.

(** ok P a: [a] is a digit vector of the right length. *)
Definition ok (P : params) (a : list Z) : Prop :=
  length a = nwords P /\ digits (2 ^ radix P) a.

Record Wf (P : params) : Prop := {
  wf_inv : chain_exp P = Some ((par_p P - 3) / 4);
  wf_radix : 4 <= radix P;
  wf_radix8 : radix P mod 8 = 0;
  wf_n1 : (1 <= nwords P <= 100)%nat;
  wf_nB : Z.of_nat (nwords P) < 2 ^ radix P;
  wf_zw : (1 <= zwords P <= nwords P)%nat;
  wf_p : ok P (w_p P);
  wf_px2 : ok P (w_px2 P); wf_px4 : ok P (w_px4 P); wf_pp1 : ok P (w_pp1 P);
  wf_R2 : ok P (w_R2 P); wf_one : ok P (w_one P);
  wf_zeros : p1_ok (zwords P) (w_pp1 P);
  wf_shape : par_p P + 1 = 2 ^ Z.of_nat (e2 P) * 3 ^ Z.of_nat (e3 P);
  wf_e2 : (2 <= e2 P)%nat; wf_e3 : (1 <= e3 P)%nat;
  wf_vpx2 : valB (2 ^ radix P) (w_px2 P) = 2 * par_p P;
  wf_vpx4 : valB (2 ^ radix P) (w_px4 P) = 4 * par_p P;
  wf_vpp1 : valB (2 ^ radix P) (w_pp1 P) = par_p P + 1;
  wf_vR2 : valB (2 ^ radix P) (w_R2 P) = (par_R P * par_R P) mod par_p P;
  wf_vone : valB (2 ^ radix P) (w_one P) = par_R P mod par_p P;
  wf_head : 256 * par_p P <= par_R P;
  wf_nbits : 2 ^ (nbits P - 1) <= par_p P < 2 ^ nbits P;
  wf_nbits0 : 0 < nbits P;
  wf_bytes : ((nwords P - 1) * Z.to_nat (radix P / 8) <= fp_bytes P <= nwords P * Z.to_nat (radix P / 8))%nat
}.

Lemma table_ok_ok P l : table_ok P l = true -> ok P l.
Proof.
  unfold table_ok. rewrite andb_true_iff, Nat.eqb_eq, forallb_forall. intros [H1 H2]. split; auto.
  apply Forall_forall. intros x Hx. specialize (H2 x Hx). lia.
Qed.

Lemma zeros_ok k l : forallb (fun d => d =? 0) (firstn k l) = true -> p1_ok k l.
Proof.
  revert l; induction k as [|k IH]; intros l H j Hj; [lia|].
  destruct l as [|x l]; [destruct j; reflexivity|].
  cbn [firstn forallb] in H. apply andb_true_iff in H as [H1 H2].
  destruct j; cbn [nth]; [lia|]. apply IH; auto; lia.
Qed.

Lemma oeqb_eq a b : oeqb a b = true -> a = Some b.
Proof. destruct a; cbn; [|discriminate]. intros H. apply Z.eqb_eq in H. now subst. Qed.

Lemma wf_check_Wf P : wf_check P = true -> Wf P.
Proof.
  unfold wf_check. rewrite !andb_true_iff. intros H.
  repeat match goal with H : _ /\ _ |- _ => destruct H end.
  repeat match goal with
  | H : oeqb _ _ = true |- _ => apply oeqb_eq in H
  | H : (_ =? _) = true |- _ => apply Z.eqb_eq in H
  | H : (_ <=? _) = true |- _ => apply Z.leb_le in H
  | H : (_ <? _) = true |- _ => apply Z.ltb_lt in H
  | H : (_ <=? _)%nat = true |- _ => apply Nat.leb_le in H
  | H : table_ok _ _ = true |- _ => apply table_ok_ok in H
  | H : forallb _ (firstn _ _) = true |- _ => apply zeros_ok in H
  end.
  constructor; try assumption; split; assumption.
Qed.

Lemma Wf_P434 t : Wf (P434 t).
Proof. apply wf_check_Wf. destruct t; vm_compute; reflexivity. Qed.
Lemma Wf_P503 t : Wf (P503 t).
Proof. apply wf_check_Wf. destruct t; vm_compute; reflexivity. Qed.
Lemma Wf_P610 t : Wf (P610 t).
Proof. apply wf_check_Wf. destruct t; vm_compute; reflexivity. Qed.
Lemma Wf_P751 t : Wf (P751 t).
Proof. apply wf_check_Wf. destruct t; vm_compute; reflexivity. Qed.
Lemma Wf_Ptoy : Wf Ptoy.
Proof. apply wf_check_Wf. vm_compute; reflexivity. Qed.

(** The digit width does not change the constants. *)
Lemma par_p_434 t : par_p (P434 t) = 2 ^ 216 * 3 ^ 137 - 1.
Proof. destruct t; vm_compute; reflexivity. Qed.
Lemma par_p_503 t : par_p (P503 t) = 2 ^ 250 * 3 ^ 159 - 1.
Proof. destruct t; vm_compute; reflexivity. Qed.
Lemma par_p_610 t : par_p (P610 t) = 2 ^ 305 * 3 ^ 192 - 1.
Proof. destruct t; vm_compute; reflexivity. Qed.
Lemma par_p_751 t : par_p (P751 t) = 2 ^ 372 * 3 ^ 239 - 1.
Proof. destruct t; vm_compute; reflexivity. Qed.
