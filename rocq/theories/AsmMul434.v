(** fpmul434_asm. *)
From Verif Require Import Base BaseP Params Digits Fp FpP Asm AsmP434 AsmP AsmRedP.

Local Notation P := (P434 T64).
Definition p434 : Z := valB W (w_p P).
Definition zreg : list reg := [R8; R9; R10; R11; R12; R13; R14; R15].
Definition hi434 : list Z := skipn 3 (w_pp1 P).

Lemma p434_1 : p434 + 1 = W ^ Z.of_nat 3 * valB W hi434.
Proof. reflexivity. Qed.
Lemma p434_pos : 0 < p434. Proof. reflexivity. Qed.
Lemma hi434_word : Forall word hi434.
Proof. repeat constructor; vm_compute; intuition discriminate. Qed.
Lemma hi434_ops C s : mops C s (mT (w_pp1 P) 24) 0 hi434.
Proof. repeat split; intros s' _; reflexivity. Qed.

Lemma FPMUL_mont M0 M1 T0 T1 : FPMUL448x448 M0 M1 R8 R9 R10 R11 R12 R13 R14 R15 T0 T1 =
  mont (mT (w_pp1 P) 24) 3 T0 T1 M1 M0 6 zreg.
Proof. reflexivity. Qed.

(** ** What a function does outside its result *)
(** rbx, rbp, r12 to r15 and the stack are as before, only the words of the result changed. *)
Definition saved (s s' : st) : Prop :=
  stk s' = stk s /\ forall r, In r [RBX; RBP; R12; R13; R14; R15] -> rg s' r = rg s r.
Definition only_at (x : Z) (n : nat) (m m' : Z -> Z) : Prop :=
  forall y, (forall i, (i < n)%nat -> y <> x + 8 * Z.of_nat i) -> m' y = m y.

Lemma holds_Mm C s b x : ~ In b C -> holds C s (Mm b x) (mem s (rg s b + x)).
Proof. intros N s' (M & _ & _ & R). cbn [rd]. now rewrite M, R. Qed.
Ltac notin := let H := fresh in intros H; cbn in H; intuition discriminate.
Lemma mops_seq C s b d m x n : ~ In b C -> rg s b = x -> forall j,
  (forall i, In i (seq j n) -> mem s (x + (d + 8 * Z.of_nat i)) = m (x + (d + 8 * Z.of_nat i))) ->
  mops C s (mB b d) (Z.of_nat j) (map (fun i => m (x + (d + 8 * Z.of_nat i))) (seq j n)).
Proof.
  intros N E. induction n as [|n IH]; intros j H; cbn [seq map mops]; auto. split.
  - rewrite <- H by (now left). subst x. now apply holds_Mm.
  - replace (Z.of_nat j + 1) with (Z.of_nat (S j)) by lia. apply IH. intros i Hi. apply H. now right.
Qed.
Lemma mops_wat C s b d m x n : ~ In b C -> rg s b = x -> wat (mem s) x d n = wat m x d n ->
  mops C s (mB b d) 0 (wat m x d n).
Proof.
  intros N E H. apply (mops_seq C s b d m x n N E 0). intros i Hi. unfold wat in H.
  exact (ext_in_map H i Hi).
Qed.
Lemma mops_tl C s b d m x n : ~ In b C -> rg s b = x -> wat (mem s) x d (S n) = wat m x d (S n) ->
  mops C s (mB b d) 1 (tl (wat m x d (S n))).
Proof. intros N E H. exact (proj2 (mops_wat C s b d m x (S n) N E H)). Qed.
Ltac nodup := repeat constructor; notin.
Ltac sim_cbn := cbn -[Z.add Z.sub Z.mul Z.div Z.modulo Z.lxor Z.land W Z.of_nat wat mul_row Z.eqb Z.ltb sgn over].

(** Seven words stored at x. *)
Definition put7 (x : Z) (l : list Z) (m : Z -> Z) : Z -> Z :=
  fun y => if y =? x + 48 then nth 6 l 0 else if y =? x + 40 then nth 5 l 0 else if y =? x + 32 then nth 4 l 0 else
           if y =? x + 24 then nth 3 l 0 else if y =? x + 16 then nth 2 l 0 else if y =? x + 8 then nth 1 l 0 else
           if y =? x + 0 then nth 0 l 0 else m y.
Lemma put7_wat x l m m' : (forall y, m' y = put7 x l m y) -> length l = 7%nat -> wat m' x 0 7 = l.
Proof.
  intros H L. do 8 (destruct l as [|? l]; [try discriminate|]); [|discriminate].
  unfold wat. cbn [seq map]. rewrite !H. unfold put7. cbn [nth].
  repeat match goal with |- context [?a =? ?b] => destruct (Z.eqb_spec a b); try lia end. reflexivity.
Qed.
Lemma put7_only x l m m' : (forall y, m' y = put7 x l m y) -> only_at x 7 m m'.
Proof.
  intros H y Hy. rewrite H. unfold put7.
  pose proof (Hy 0%nat ltac:(lia)). pose proof (Hy 1%nat ltac:(lia)). pose proof (Hy 2%nat ltac:(lia)).
  pose proof (Hy 3%nat ltac:(lia)). pose proof (Hy 4%nat ltac:(lia)). pose proof (Hy 5%nat ltac:(lia)).
  pose proof (Hy 6%nat ltac:(lia)).
  repeat match goal with |- context [?a =? ?b] => destruct (Z.eqb_spec a b); [lia|] end. reflexivity.
Qed.

(** ** fpmul434_asm, lines 771-813 *)
Definition pro_mul : list instr := firstn 23 fpmul434_asm.
Definition epi_mul : list instr := skipn (length fpmul434_asm - 13) fpmul434_asm.
Lemma fpmul434_split : fpmul434_asm =
  pro_mul ++ FPMUL448x448 (mB RSI 0) (mB RDI 0) R8 R9 R10 R11 R12 R13 R14 R15 RBX RBP ++ epi_mul.
Proof. reflexivity. Qed.
Lemma pro_mul_regs s : map (rg (run pro_mul s)) zreg = mul_row (mem s (rg s RSI + 0)) (wat (mem s) (rg s RDI) 0 7).
Proof.
  unfold pro_mul, fpmul434_asm. cbn [firstn app]. sim_cbn. rewrite !Z.lxor_nilpotent. reflexivity.
Qed.

Definition mul_post (a b c : list Z) : Prop :=
  Forall word c /\ length c = 7%nat /\ 0 <= valB W c < valB W a + p434 /\
  exists m, 0 <= m < W ^ 7 /\ W ^ 7 * valB W c = valB W a * valB W b + m * p434.

Lemma words_map s zs l : map (rg s) zs = l -> Forall word l -> words s zs /\ valr s zs = valB W l.
Proof. intros E H. split; [|unfold valr; now rewrite E]. unfold words. subst l. exact (proj1 (Forall_map _ _ _) H). Qed.

Lemma FPMUL_ok T0 T1 M0 M1 b bs ms s : let C := clob T0 T1 zreg in
  (T0, T1) = (RBX, RBP) \/ (T0, T1) = (RBX, RCX) ->
  mops C s M0 1 bs -> mops C s M1 0 ms -> length ms = 7%nat -> length bs = 6%nat ->
  Forall word (b :: bs) -> Forall word ms -> words s zreg -> valr s zreg = b * valB W ms -> valB W ms + p434 <= W ^ 7 ->
  let s' := run (FPMUL448x448 M0 M1 R8 R9 R10 R11 R12 R13 R14 R15 T0 T1) s in
  frame C s s' /\ mul_post ms (b :: bs) (map (rg s') [R15; R8; R9; R10; R11; R12; R13]).
Proof.
  intros C HT HB HM Lm Lb Wb Wm Hw HV HA s'. unfold s'. rewrite FPMUL_mont.
  pose proof (mont_ok (mT (w_pp1 P) 24) hi434 3 p434 T0 T1) as K.
  specialize (K ltac:(destruct HT as [H|H]; injection H as -> ->; discriminate)).
  specialize (K ltac:(destruct HT as [H|H]; injection H as -> ->; discriminate)).
  specialize (K ltac:(destruct HT as [H|H]; injection H as -> ->; discriminate)).
  specialize (K ltac:(destruct HT as [H|H]; injection H as -> ->; discriminate)).
  specialize (K ltac:(destruct HT as [H|H]; injection H as -> ->; discriminate)).
  specialize (K hi434_ops hi434_word ltac:(lia) ltac:(discriminate) p434_1 p434_pos M1 ms Wm M0 C b bs zreg s).
  assert (RR : removelast (rots 7 zreg) = [R15; R8; R9; R10; R11; R12; R13]) by reflexivity.
  rewrite Lb in K. cbv zeta in K. rewrite RR in K. cbn [length] in K. rewrite Lb, Lm in K.
  generalize dependent (run (mont (mT (w_pp1 P) 24) 3 T0 T1 M1 M0 6 zreg) s). clear s' RR. intros s' K.
  destruct K as (F & W' & V & m & Hm & E); auto.
  - apply incl_refl.
  - destruct HT as [H|H]; injection H as -> ->; (split; [nodup|]); repeat split; notin.
  - split; auto. unfold mul_post, valr in *. split; [|split; [|split]].
    + exact (proj2 (Forall_map _ _ _) W').
    + reflexivity.
    + exact V.
    + exists m. split; [exact Hm|]. exact E.
Qed.

Lemma wat_length m x d n : length (wat m x d n) = n.
Proof. unfold wat. now rewrite map_length, seq_length. Qed.


Lemma pro_mul_ok s : let a := wat (mem s) (rg s RDI) 0 7 in let b := wat (mem s) (rg s RSI) 0 7 in
  Forall word a -> word (mem s (rg s RSI + 0)) ->
  let s1 := run pro_mul s in
  mem s1 = mem s /\ rg s1 RDI = rg s RDI /\ rg s1 RSI = rg s RSI /\ rg s1 RCX = rg s RDX /\
  stk s1 = rg s RBP :: rg s RBX :: rg s R15 :: rg s R14 :: rg s R13 :: rg s R12 :: stk s /\
  words s1 zreg /\ valr s1 zreg = mem s (rg s RSI + 0) * valB W a.
Proof.
  intros a b Wa W0 s1. do 5 (split; [reflexivity|]).
  destruct (mul_row_ok (mem s (rg s RSI + 0)) a W0 ltac:(discriminate) Wa) as [WR VR].
  destruct (words_map _ _ _ (pro_mul_regs s) WR) as [W1 V1]. fold a s1 in W1, V1. rewrite VR in V1. auto.
Qed.
Lemma epi_mul_ok s s2 : mem s2 = mem s -> rg s2 RCX = rg s RDX ->
  stk s2 = rg s RBP :: rg s RBX :: rg s R15 :: rg s R14 :: rg s R13 :: rg s R12 :: stk s ->
  let s' := run epi_mul s2 in
  saved s s' /\ only_at (rg s RDX) 7 (mem s) (mem s') /\
  wat (mem s') (rg s RDX) 0 7 = map (rg s2) [R15; R8; R9; R10; R11; R12; R13].
Proof.
  intros M2 RC2 K2 s'.
  assert (PM : forall y, mem s' y = put7 (rg s RDX) (map (rg s2) [R15; R8; R9; R10; R11; R12; R13]) (mem s) y).
  { intros y. rewrite <- RC2, <- M2. reflexivity. }
  split; [|split].
  - split; [now cbn; rewrite K2|].
    intros r Hr. cbn in Hr. destruct Hr as [<-|[<-|[<-|[<-|[<-|[<-|[]]]]]]]; cbn; now rewrite K2.
  - eapply put7_only; eauto.
  - now rewrite (put7_wat _ _ _ _ PM) by reflexivity.
Qed.
Lemma fpmul434_ok s : let a := wat (mem s) (rg s RDI) 0 7 in let b := wat (mem s) (rg s RSI) 0 7 in
  Forall word a -> Forall word b -> valB W a + p434 <= W ^ 7 ->
  let s' := run fpmul434_asm s in
  saved s s' /\ only_at (rg s RDX) 7 (mem s) (mem s') /\ mul_post a b (wat (mem s') (rg s RDX) 0 7).
Proof.
  intros a b Wa Wb HA. cbv zeta. rewrite fpmul434_split, !run_app.
  assert (Hb : b = mem s (rg s RSI + 0) :: tl b) by reflexivity.
  assert (Wb' := Wb). rewrite Hb in Wb'. inversion_clear Wb' as [|? ? W0 Wt].
  pose proof (pro_mul_ok s Wa W0) as P0. cbv zeta in P0.
  generalize dependent (run pro_mul s). intros s1 (M1 & RI & RS & RC & K1 & W1 & V1).
  destruct (FPMUL_ok RBX RBP (mB RSI 0) (mB RDI 0) (mem s (rg s RSI + 0)) (tl b) a s1) as (F & Q); auto.
  - apply mops_tl; [notin|exact RS|now rewrite M1].
  - apply mops_wat; [notin|exact RI|now rewrite M1].
  - rewrite <- Hb in Q.
    generalize dependent (run (FPMUL448x448 (mB RSI 0) (mB RDI 0) R8 R9 R10 R11 R12 R13 R14 R15 RBX RBP) s1).
    intros s2 (M2 & K2 & _ & R2) Q. rewrite K1 in K2. rewrite M1 in M2.
    assert (RC2 : rg s2 RCX = rg s RDX) by (rewrite R2; [exact RC|notin]).
    destruct (epi_mul_ok s s2 M2 RC2 K2) as (A & B & C). rewrite C. auto.
Qed.
