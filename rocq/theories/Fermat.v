(** Fermat's little theorem over Z (proofs only). *)
From Coq Require Import ZArith List Lia Permutation Znumtheory.
Import ListNotations.
Open Scope Z_scope.

Definition prodZ (l : list Z) : Z := fold_right Z.mul 1 l.
Lemma prodZ_perm l l' : Permutation l l' -> prodZ l = prodZ l'.
Proof.
  induction 1 as [|x l l' _ IH|x y l|l l1 l2 _ IH1 _ IH2]; cbn [prodZ fold_right] in *; fold (prodZ); [reflexivity| |ring|congruence].
  unfold prodZ in IH. rewrite IH. reflexivity.
Qed.
Lemma prodZ_scale p a l : 0 < p ->
  prodZ (map (fun x => (a * x) mod p) l) mod p = (a ^ Z.of_nat (length l) * prodZ l) mod p.
Proof.
  intros Hp. induction l as [|x l IH]; [reflexivity|].
  cbn [map prodZ fold_right length]. fold (prodZ (map (fun x => (a * x) mod p) l)). fold (prodZ l).
  rewrite Z.mul_mod, IH, Zmod_mod, <- Z.mul_mod by lia.
  rewrite Nat2Z.inj_succ, Z.pow_succ_r by lia. f_equal. ring.
Qed.
Lemma prodZ_prime p l : prime p -> Forall (fun x => x mod p <> 0) l -> prodZ l mod p <> 0.
Proof.
  intros Hp H. induction H as [|x l Hx H IH]; cbn [prodZ fold_right].
  - pose proof (prime_ge_2 p Hp). rewrite Z.mod_small; lia.
  - fold (prodZ l). intros E. apply Z.mod_divide in E; [|pose proof (prime_ge_2 p Hp); lia].
    apply prime_mult in E as [E|E]; auto; [apply Hx|apply IH]; apply Z.mod_divide; auto;
      pose proof (prime_ge_2 p Hp); lia.
Qed.
Definition range1 (p : Z) : list Z := map Z.of_nat (seq 1 (Z.to_nat (p - 1))).
Lemma in_range1 p x : In x (range1 p) <-> 1 <= x < p.
Proof.
  unfold range1. rewrite in_map_iff. split.
  - intros (k & <- & H). apply in_seq in H. lia.
  - intros H. exists (Z.to_nat x). split; [lia|]. apply in_seq. lia.
Qed.
Lemma nodup_map_inj {A B} (f : A -> B) l : (forall x y, In x l -> In y l -> f x = f y -> x = y) ->
  NoDup l -> NoDup (map f l).
Proof.
  intros Hf H. induction H as [|x l Hx H IH]; cbn; constructor.
  - intros (y & E & Hy)%in_map_iff. apply Hx. rewrite (Hf x y); cbn; auto.
  - apply IH. intros; apply Hf; cbn; auto.
Qed.
Lemma fermat_Z p a : prime p -> (a ^ p) mod p = a mod p.
Proof.
  intros Hp. pose proof (prime_ge_2 p Hp) as P2.
  replace p with (Z.succ (p - 1)) at 1 by lia. rewrite Z.pow_succ_r by lia.
  destruct (Z.eq_dec (a mod p) 0) as [E|E].
  - rewrite Z.mul_mod, E by lia. rewrite Z.mul_0_l, Z.mod_0_l; lia.
  - set (l := range1 p). set (f := fun x => (a * x) mod p).
    assert (L : length l = Z.to_nat (p - 1)) by (unfold l, range1; rewrite map_length, seq_length; auto).
    assert (D : forall x, (p | a * x) -> (p | x)).
    { intros x H. apply prime_mult in H as [H|H]; auto. apply Z.mod_divide in H; lia. }
    assert (ND : NoDup l).
    { apply nodup_map_inj; [intros; lia|apply seq_NoDup]. }
    assert (ND2 : NoDup (map f l)).
    { apply nodup_map_inj; auto. intros x y Hx Hy F. apply in_range1 in Hx, Hy. unfold f in F.
      assert (Q : (p | a * (x - y))).
      { apply Z.mod_divide; [lia|]. rewrite Z.mul_sub_distr_l, Zminus_mod, F, Z.sub_diag, Z.mod_0_l; lia. }
      apply D in Q as [k Q]. assert (k = 0) by nia. lia. }
    assert (PM : Permutation (map f l) l).
    { apply NoDup_Permutation_bis; auto; [rewrite map_length; lia|].
      intros y (x & <- & Hx)%in_map_iff. apply in_range1 in Hx. apply in_range1. unfold f.
      assert (0 <= (a * x) mod p < p) by (apply Z.mod_pos_bound; lia).
      assert ((a * x) mod p <> 0); [|lia]. intros Z0. apply Z.mod_divide in Z0; [|lia].
      apply D in Z0 as [k Q]. assert (k = 0) by nia. lia. }
    apply prodZ_perm in PM. pose proof (prodZ_scale p a l ltac:(lia)) as S. fold f in S. rewrite PM, L, Z2Nat.id in S by lia.
    assert (NZ : prodZ l mod p <> 0).
    { apply prodZ_prime; auto. apply Forall_forall. intros x Hx. apply in_range1 in Hx. rewrite Z.mod_small; lia. }
    assert (Q : (p | prodZ l * (a ^ (p - 1) - 1))).
    { apply Z.mod_divide; [lia|]. replace (prodZ l * (a ^ (p - 1) - 1)) with (a ^ (p - 1) * prodZ l - prodZ l) by ring.
      rewrite Zminus_mod, <- S, Z.sub_diag, Z.mod_0_l; lia. }
    apply prime_mult in Q as [Q|[k Q]]; auto; [apply Z.mod_divide in Q; lia|].
    replace (a ^ (p - 1)) with (1 + k * p) by lia. rewrite Z.mul_add_distr_l, Z.mul_1_r.
    rewrite Z.mul_assoc, Z.mod_add; lia.
Qed.
