(** Counting: the order of a subgroup divides the number of points. *)
From Coq Require Import Znumtheory Permutation.
From Verif Require Import Base Fld CurveSpec OrderSpec GroupP MultP OrderP.
Set Bullet Behavior "Strict Subproofs".

Lemma NoDup_map_in {X Y} (f : X -> Y) (l : list X) :
  (forall a b, In a l -> In b l -> f a = f b -> a = b) -> NoDup l -> NoDup (map f l).
Proof.
  intros H N. induction N as [|x l Nx N IH]; cbn; constructor.
  - intros I. apply in_map_iff in I as (y & E & I). apply Nx. rewrite (H x y); auto; [now left|now right].
  - apply IH. intros a b Ia Ib. apply H; now right.
Qed.
Lemma NoDup_app_in {X} (l m : list X) : NoDup l -> NoDup m -> (forall a, In a l -> In a m -> False) -> NoDup (l ++ m).
Proof.
  intros N1 N2 D. induction N1 as [|x l Nx N IH]; cbn; auto. constructor.
  - rewrite in_app_iff. intros [I|I]; [auto|]. apply (D x); auto. now left.
  - apply IH. intros a Ia. apply D. now right.
Qed.
Lemma filter_len {X} (f : X -> bool) (l : list X) : (length (filter f l) + length (filter (fun y => negb (f y)) l) = length l)%nat.
Proof. induction l as [|x l IH]; cbn; auto. destruct (f x); cbn; lia. Qed.
Section Lagrange.
Variable G : Type.
Variable dec : forall x y : G, {x = y} + {x <> y}.
Variables (op : G -> G -> G) (inv : G -> G) (e : G).
Variable Gp : G -> Prop.
Hypothesis op_G : forall x y, Gp x -> Gp y -> Gp (op x y).
Hypothesis inv_G : forall x, Gp x -> Gp (inv x).
Hypothesis assoc : forall x y z, Gp x -> Gp y -> Gp z -> op (op x y) z = op x (op y z).
Hypothesis id_r : forall x, Gp x -> op x e = x.
Hypothesis id_l : forall x, Gp x -> op e x = x.
Hypothesis inv_l : forall x, Gp x -> op (inv x) x = e.
Hypothesis inv_r : forall x, Gp x -> op x (inv x) = e.
Variable Hl : list G.
Hypothesis H_nodup : NoDup Hl.
Hypothesis H_G : forall h, In h Hl -> Gp h.
Hypothesis H_e : In e Hl.
Hypothesis H_sub : forall h h', In h Hl -> In h' Hl -> In (op h' (inv h)) Hl.
Lemma lagrange : forall n (L : list G), (length L <= n)%nat -> NoDup L -> (forall x, In x L -> Gp x) ->
  (forall x h, In x L -> In h Hl -> In (op x h) L) -> Nat.divide (length Hl) (length L).
Proof.
  induction n as [|n IH]; intros L Hn ND HG C.
  - destruct L; cbn in *; [apply Nat.divide_0_r|lia].
  - destruct L as [|x L0]; [apply Nat.divide_0_r|]. set (L := x :: L0) in *.
    assert (Hx : In x L) by now left. pose proof (HG x Hx) as Gx.
    set (co := map (op x) Hl).
    assert (NC : NoDup co).
    { apply NoDup_map_in; auto. intros h h' I1 I2 E.
      rewrite <- (id_l h), <- (id_l h'), <- (inv_l x), !assoc, E; auto. }
    set (f := fun y => if in_dec dec y co then true else false).
    assert (P1 : Permutation (filter f L) co).
    { apply NoDup_Permutation; auto using NoDup_filter. intros y. rewrite filter_In. unfold f. split.
      - intros [_ E]. destruct (in_dec dec y co); auto. discriminate.
      - intros I. destruct (in_dec dec y co); [|contradiction]. split; auto. apply in_map_iff in I as (h & <- & I). auto. }
    set (L' := filter (fun y => negb (f y)) L).
    assert (Len : (length (filter f L) + length L' = length L)%nat) by apply filter_len.
    apply Permutation_length in P1. unfold co in P1. rewrite map_length in P1. rewrite P1 in Len.
    assert (HL0 : (1 <= length Hl)%nat) by (destruct Hl; cbn in *; [contradiction|lia]).
    rewrite <- Len. apply Nat.divide_add_r; [apply Nat.divide_refl|]. apply IH.
    + lia.
    + unfold L'. now apply NoDup_filter.
    + intros y I. apply filter_In in I as [I _]. auto.
    + intros y h I Ih. apply filter_In in I as [I N]. apply filter_In. split; auto. unfold f in *.
      destruct (in_dec dec y co) as [|Ny]; [discriminate|]. destruct (in_dec dec (op y h) co) as [Iy|]; auto.
      exfalso. apply Ny. unfold co in *. apply in_map_iff in Iy as (h' & E & Ih'). apply in_map_iff.
      exists (op h' (inv h)). split; auto. rewrite <- assoc, E, assoc, inv_r, id_r; auto.
Qed.
End Lagrange.

Section Sub.
Variable F : fld.
Hypothesis two : (kadd k1 k1 : F) <> k0.
Variables A B : F.
Hypothesis HA : (A * A <> 4)%F.
Hypothesis HB : B <> k0.
Local Notation on := (on A B). Local Notation padd := (padd A B). Local Notation pmul := (pmul A B).
Notation pmul_on := (pmul_on F two A B HA HB). Notation pmul_mul := (pmul_mul F two A B HA HB).
Notation pmul_add := (pmul_add F two A B HA HB).
Notation padd_on := (padd_on F two A B HA HB). Notation padd_comm := (padd_comm F two A B HA HB).
Notation padd_assoc := (padd_assoc F two A B HA HB).
Variables M1 M2 M3 M4 : point F.
Variables m1 m2 m3 m4 : nat.
Hypothesis O1 : on M1. Hypothesis O2 : on M2. Hypothesis O3 : on M3. Hypothesis O4 : on M4.
Hypothesis P1 : (0 < m1)%nat. Hypothesis P2 : (0 < m2)%nat. Hypothesis P3 : (0 < m3)%nat. Hypothesis P4 : (0 < m4)%nat.
Hypothesis K1 : pmul m1 M1 = Inf. Hypothesis K2 : pmul m2 M2 = Inf. Hypothesis K3 : pmul m3 M3 = Inf. Hypothesis K4 : pmul m4 M4 = Inf.
Hypothesis I4 : independent4 A B M1 M2 M3 M4 m1 m2 m3 m4.

Definition cb (n : nat * nat * (nat * nat)) : point F :=
  padd (padd (pmul (fst (fst n)) M1) (pmul (snd (fst n)) M2)) (padd (pmul (fst (snd n)) M3) (pmul (snd (snd n)) M4)).
Lemma cb_on n : on (cb n).
Proof. unfold cb. auto 8 using padd_on, pmul_on. Qed.
Lemma swap4 a b c d : on a -> on b -> on c -> on d -> padd (padd a b) (padd c d) = padd (padd a c) (padd b d).
Proof.
  intros. rewrite !padd_assoc by auto using padd_on. f_equal. rewrite <- !padd_assoc by auto using padd_on. f_equal. now apply padd_comm.
Qed.
Definition nadd (n k : nat * nat * (nat * nat)) :=
  ((fst (fst n) + fst (fst k), snd (fst n) + snd (fst k)), (fst (snd n) + fst (snd k), snd (snd n) + snd (snd k)))%nat.
Lemma cb_add n k : cb (nadd n k) = padd (cb n) (cb k).
Proof.
  unfold cb, nadd. cbn [fst snd]. rewrite !pmul_add by auto.
  rewrite (swap4 (pmul (fst (fst n)) M1)), (swap4 (pmul (fst (snd n)) M3)) by auto using pmul_on.
  rewrite <- swap4 by auto using padd_on, pmul_on. reflexivity.
Qed.
Definition nred (n : nat * nat * (nat * nat)) :=
  ((fst (fst n) mod m1, snd (fst n) mod m2), (fst (snd n) mod m3, snd (snd n) mod m4))%nat.
Lemma cb_red n : cb (nred n) = cb n.
Proof.
  unfold cb, nred. cbn [fst snd].
  rewrite <- (kill_mod F two A B HA HB m1), <- (kill_mod F two A B HA HB m2), <- (kill_mod F two A B HA HB m3), <- (kill_mod F two A B HA HB m4) by (auto; lia).
  reflexivity.
Qed.
Definition nneg (n : nat * nat * (nat * nat)) :=
  ((fst (fst n) * (m1 - 1), snd (fst n) * (m2 - 1)), (fst (snd n) * (m3 - 1), snd (snd n) * (m4 - 1)))%nat.
Lemma cb_neg n : padd (cb n) (cb (nneg n)) = Inf.
Proof.
  rewrite <- cb_add, <- cb_red. unfold nred, nadd, nneg. cbn [fst snd].
  assert (R : forall a m, (0 < m)%nat -> ((a + a * (m - 1)) mod m = 0)%nat).
  { intros a m H. replace (a + a * (m - 1))%nat with (a * m)%nat by nia. apply Nat.mod_mul; lia. }
  rewrite !R by auto. reflexivity.
Qed.
Definition idx : list (nat * nat * (nat * nat)) :=
  list_prod (list_prod (seq 0 m1) (seq 0 m2)) (list_prod (seq 0 m3) (seq 0 m4)).
Definition subgroup : list (point F) := map cb idx.
Lemma NoDup_prod {X Y} (l : list X) (l' : list Y) : NoDup l -> NoDup l' -> NoDup (list_prod l l').
Proof.
  intros H1 H2. induction H1 as [|x l N H IH]; cbn; [constructor|].
  apply NoDup_app_in.
  - apply NoDup_map_in; auto. intros a b _ _ E. congruence.
  - exact IH.
  - intros [a b] I J. apply in_map_iff in I as (y & E & _). injection E as <- <-. apply in_prod_iff in J as [J _]. contradiction.
Qed.
Lemma idx_in n : In n idx <-> (fst (fst n) < m1 /\ snd (fst n) < m2 /\ fst (snd n) < m3 /\ snd (snd n) < m4)%nat.
Proof.
  destruct n as [[a b] [c d]]. unfold idx. rewrite !in_prod_iff, !in_seq. cbn. lia.
Qed.
Lemma sub_nodup : NoDup subgroup.
Proof.
  apply NoDup_map_in; [|repeat apply NoDup_prod; apply seq_NoDup].
  intros n k Hn Hk E. apply idx_in in Hn, Hk.
  assert (X : cb (nadd n (nneg k)) = Inf) by (rewrite cb_add, E; apply cb_neg).
  apply I4 in X. destruct n as [[a b] [c d]], k as [[a' b'] [c' d']]. unfold nadd, nneg in X. cbn [fst snd] in *.
  assert (D : forall x y m, (x < m)%nat -> (y < m)%nat -> Nat.divide m (x + y * (m - 1)) -> x = y).
  { intros x y m Hx Hy [q Eq]. assert (E' : (x + y * m = q * m + y)%nat) by (destruct m; [lia|]; cbn in *; nia). clear Eq.
    destruct (lt_eq_lt_dec q y) as [[L|L]|L]; [|subst; lia|].
    - assert ((q + 1) * m <= y * m)%nat by (apply Nat.mul_le_mono_r; lia). lia.
    - assert ((y + 1) * m <= q * m)%nat by (apply Nat.mul_le_mono_r; lia). lia. }
  destruct X as (X1 & X2 & X3 & X4). destruct Hn as (? & ? & ? & ?), Hk as (? & ? & ? & ?).
  rewrite (D a a' m1), (D b b' m2), (D c c' m3), (D d d' m4) by assumption. reflexivity.
Qed.
Lemma sub_len : length subgroup = (m1 * m2 * (m3 * m4))%nat.
Proof. unfold subgroup, idx. now rewrite map_length, !prod_length, !seq_length. Qed.
Lemma sub_in n : In (cb n) subgroup.
Proof.
  rewrite <- cb_red. apply in_map, idx_in. unfold nred; cbn [fst snd]. repeat split; apply Nat.mod_upper_bound; lia.
Qed.
Definition pt_dec (M N : point F) : {M = N} + {M <> N}.
Proof.
  destruct M as [|x y], N as [|x' y']; [now left|now right|now right|].
  destruct (kdec x x') as [->|]; [destruct (kdec y y') as [->|]; [now left|]|]; right; congruence.
Defined.
Lemma count l : all_points A B l -> Nat.divide (m1 * m2 * (m3 * m4)) (length l).
Proof.
  intros [ND Hl]. rewrite <- sub_len. apply (lagrange _ pt_dec padd neg Inf on) with (n := length l); auto.
  - exact padd_on.
  - apply (neg_on F A B).
  - exact padd_assoc.
  - intros x _. destruct x; reflexivity.
  - intros x _. apply padd_neg'.
  - intros x _. apply padd_neg.
  - exact sub_nodup.
  - intros h I. apply in_map_iff in I as (n & <- & _). apply cb_on.
  - change (@Inf F) with (cb (0, 0, (0, 0))%nat). apply sub_in.
  - intros h h' I I'. apply in_map_iff in I as (n & <- & _). apply in_map_iff in I' as (n' & <- & _).
    pose proof (cb_neg n) as E. apply (padd_opp_eq F two A B HA HB) in E; auto using cb_on. rewrite <- E, <- cb_add. apply sub_in.
  - intros x. apply Hl.
  - intros x h Hx Hh. apply Hl. apply padd_on; [now apply Hl|]. apply in_map_iff in Hh as (n & <- & _). apply cb_on.
Qed.
End Sub.
