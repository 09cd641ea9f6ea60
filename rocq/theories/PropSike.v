(** Theorems about the key encapsulation (properties.jsonl C48). *)
From Verif Require Import Base Digits Out Params Fp FpMisc Keccak Ops Sike SikeP.

(** C48: when the key exchange agrees, decapsulation returns the encapsulated secret; the previous content of the
    uninitialised buffer does not matter. *)
Theorem C48_decapsulates : forall msgb skA skB pkb ssb maskA maskB keygen_A agree_B,
  (forall a c, keygen_A a = Ok c -> length c = pkb /\ digits 256 c) -> (forall a b j, length b = pkb -> digits 256 b -> agree_B a b = Ok (Some j) -> digits 256 j) ->
  forall keygen_B agree_A, (forall a c, keygen_B a = Ok c -> length c = pkb /\ digits 256 c) ->
  kex_agree skA skB keygen_A keygen_B agree_A agree_B ->
  (forall a b j, length b = pkb -> digits 256 b -> agree_A a b = Ok j -> digits 256 j) ->
  forall tp tp1 tp' tp1' pk sk ct ss temp, digits 256 tp -> digits 256 tp1 -> length temp = msgb -> digits 256 temp ->
  crypto_kem_keypair msgb skB maskB keygen_B tp = Ok (pk, sk, tp') ->
  crypto_kem_enc msgb skA ssb maskA keygen_A agree_A pk tp1 = Ok (ct, ss, tp1') ->
  not_rejected msgb skB pkb agree_B sk ct ->
  crypto_kem_dec msgb skA skB pkb ssb maskA keygen_A agree_B ct sk temp = Ok ss.
Proof. exact kem_correct. Qed.
Print Assumptions C48_decapsulates.

(** C48: every ciphertext that is not an encapsulation of any message gives the hash of the secret string s and the ciphertext. *)
Theorem C48_rejects : forall msgb skA skB pkb ssb maskA maskB keygen_A agree_B,
  (forall a c, keygen_A a = Ok c -> length c = pkb /\ digits 256 c) -> (forall a b j, length b = pkb -> digits 256 b -> agree_B a b = Ok (Some j) -> digits 256 j) ->
  forall keygen_B agree_A, (forall a c, keygen_B a = Ok c -> length c = pkb /\ digits 256 c) ->
  kex_agree skA skB keygen_A keygen_B agree_A agree_B ->
  forall tp tp' pk sk ct temp, digits 256 tp -> length temp = msgb -> digits 256 temp ->
  crypto_kem_keypair msgb skB maskB keygen_B tp = Ok (pk, sk, tp') ->
  length ct = (pkb + msgb)%nat -> digits 256 ct ->
  (forall a, length a = skA -> digits 256 a -> exists c, keygen_A a = Ok c) -> (forall b c, length b = skB -> length c = pkb -> digits 256 b -> digits 256 c -> exists r, agree_B b c = Ok r) -> (forall a, length a = skA -> digits 256 a -> exists j, agree_A a pk = Ok j) ->
  (forall m, ~ encapsulates msgb skA maskA keygen_A agree_A m pk ct) ->
  crypto_kem_dec msgb skA skB pkb ssb maskA keygen_A agree_B ct sk temp = Ok (shake256 ssb (firstn msgb tp ++ ct)).
Proof. exact kem_reject. Qed.
Print Assumptions C48_rejects.

(** C48: for every private key s, b, pk, agreeing or not, and every ciphertext c0, c1 of the right lengths, the result is
    the hash of the ciphertext after either the recovered message, exactly when re-encrypting it gives c0, or the string s. *)
Theorem C48_every_ciphertext : forall msgb skA skB pkb ssb maskA keygen_A agree_B,
  (forall a c, keygen_A a = Ok c -> length c = pkb /\ digits 256 c) ->
  (forall a b j, length b = pkb -> digits 256 b -> agree_B a b = Ok (Some j) -> digits 256 j) ->
  forall s b pk c0 c1 temp, length s = msgb -> length b = skB -> length c0 = pkb -> length c1 = msgb -> length temp = msgb ->
  digits 256 s -> digits 256 c0 -> digits 256 c1 -> digits 256 temp -> digits 256 pk ->
  forall r, agree_B b c0 = Ok r -> (forall a, length a = skA -> digits 256 a -> exists c, keygen_A a = Ok c) ->
  let dec := crypto_kem_dec msgb skA skB pkb ssb maskA keygen_A agree_B (c0 ++ c1) (s ++ b ++ pk) temp in
  let recovered m := exists j, r = Some j /\ m = map (fun '(x, y) => Z.lxor x y) (combine c1 (shake256 msgb j)) /\
    keygen_A (mask_last skA maskA (shake256 skA (m ++ pk))) = Ok c0 in
  (forall m, recovered m -> dec = Ok (shake256 ssb (m ++ c0 ++ c1))) /\
  ((forall m, ~ recovered m) -> dec = Ok (shake256 ssb (s ++ c0 ++ c1))).
Proof. exact dec_every. Qed.
Print Assumptions C48_every_ciphertext.

(** A two-byte key exchange whose owner rejects public keys starting with 255; the shared secret is the exclusive or. *)
Section Example.
Let isb (x : Z) := (0 <=? x) && (x <? 256).
Let byte (l : list Z) : list Z := map (fun x => x mod 256) l.
Let kg (a : list Z) : out (list Z) := if (length a =? 2)%nat && forallb isb a then Ok a else UB.
Let agA (a p : list Z) : out (list Z) := Ok (byte (xor_bytes a p)).
Let agB (b p : list Z) : out (option (list Z)) := Ok (if nth 0 p 0 =? 255 then None else Some (byte (xor_bytes p b))).
Let sk := [40; 41; 42; 43; 12; 43; 12].
Let ct := [245; 6; 144; 98; 14].
Let de c := crypto_kem_dec 3 2 2 2 4 7 kg agB c sk [1; 2; 3].
Example C48_example :
  crypto_kem_keypair 3 2 15 kg (map Z.of_nat (seq 40 10)) = Ok ([43; 12], sk, [45; 46; 47; 48; 49]) /\
  crypto_kem_enc 3 2 4 7 kg agA [43; 12] [9; 8; 7; 6] = Ok (ct, [57; 236; 193; 99], [6]) /\
  de ct = Ok [57; 236; 193; 99] /\
  de (255 :: tl ct) = Ok (shake256 4 ([40; 41; 42] ++ 255 :: tl ct)).
Proof.
  assert (B : forall l, forallb isb l = true -> digits 256 l).
  { intros l H. apply Forall_forall. intros x Hx. pose proof (proj1 (forallb_forall _ l) H x Hx) as T.
    apply andb_prop in T. rewrite Z.leb_le, Z.ltb_lt in T. exact T. }
  assert (Bm : forall l, digits 256 (byte l)).
  { intros l. apply Forall_forall. intros x Hx. apply in_map_iff in Hx. destruct Hx as (y & <- & _). now apply Z.mod_pos_bound. }
  assert (K : forall a c, kg a = Ok c -> length c = 2%nat /\ digits 256 c).
  { unfold kg. intros a c. destruct (Nat.eqb_spec (length a) 2) as [L|]; [|discriminate]. cbn [andb].
    destruct (forallb isb a) eqn:E; [|discriminate]. intros X. assert (c = a) by congruence. subst. auto. }
  assert (KB : forall a b j, length b = 2%nat -> digits 256 b -> agB a b = Ok (Some j) -> digits 256 j).
  { unfold agB. intros a b j _ _. destruct (nth 0 b 0 =? 255); [discriminate|]. intros X. replace j with (byte (xor_bytes b a)) by congruence. auto. }
  assert (KA : forall a b j, length b = 2%nat -> digits 256 b -> agA a b = Ok j -> digits 256 j).
  { unfold agA. intros a b j _ _ X. replace j with (byte (xor_bytes a b)) by congruence. auto. }
  assert (KE : kex_agree 2 2 kg kg agA agB).
  { intros a b pA pB La Lb _ _ E1 E2 j j' E3 E4.
    assert (X : forall u v, kg u = Ok v -> v = u) by (unfold kg; intros u v; destruct (_ && _); congruence).
    apply X in E1. apply X in E2. subst. unfold agA in E3. unfold agB in E4. destruct (nth 0 a 0 =? 255); congruence. }
  assert (KT : forall a, length a = 2%nat -> digits 256 a -> exists c, kg a = Ok c).
  { intros a La Da. exists a. unfold kg. rewrite La. replace (forallb isb a) with true; [reflexivity|]. symmetry. apply forallb_forall.
    intros x Hx. unfold digits in Da. rewrite Forall_forall in Da. specialize (Da x Hx). unfold isb.
    apply andb_true_intro. rewrite Z.leb_le, Z.ltb_lt. exact Da. }
  assert (E1 : crypto_kem_keypair 3 2 15 kg (map Z.of_nat (seq 40 10)) = Ok ([43; 12], sk, [45; 46; 47; 48; 49])) by reflexivity.
  assert (E2 : crypto_kem_enc 3 2 4 7 kg agA [43; 12] [9; 8; 7; 6] = Ok (ct, [57; 236; 193; 99], [6]))
    by (vm_cast_no_check (eq_refl (@Ok (list Z * list Z * tape) (ct, [57; 236; 193; 99], [6])))).
  split; [exact E1|]. split; [exact E2|]. split.
  - refine (C48_decapsulates 3 2 2 2 4 7 15 kg agB K KB kg agA K KE KA _ _ _ _ _ _ _ _ _ _ _ _ _ E1 E2 _);
      try (apply B; reflexivity); try reflexivity.
    exists (xor_bytes [245; 6] [43; 12]). reflexivity.
  - refine (proj2 (C48_every_ciphertext 3 2 2 2 4 7 kg agB K KB [40; 41; 42] [43; 12] [43; 12] [255; 6] [144; 98; 14] [1; 2; 3]
      eq_refl eq_refl eq_refl eq_refl eq_refl _ _ _ _ _ None eq_refl KT) _); try (apply B; reflexivity).
    intros m (j & H & _). discriminate H.
Qed.
End Example.
