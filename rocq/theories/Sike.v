(** Model of S/sike.c, over the four key exchange functions of S/sidh.c as parameters. *)
From Verif Require Import Base Digits Out Params Fp FpMisc Keccak Ops.

Section Sike.
Variables (msgb skA skB pkb ssb : nat).  (* MSG_BYTES, SECRETKEY_A_BYTES, SECRETKEY_B_BYTES, CRYPTO_PUBLICKEYBYTES, CRYPTO_BYTES *)
Variables (maskA maskB : Z).             (* MASK_ALICE, MASK_BOB *)
Variable keygen_A : list Z -> out (list Z).
Variable keygen_B : list Z -> out (list Z).
Variable agree_A : list Z -> list Z -> out (list Z).
Variable agree_B : list Z -> list Z -> out (option (list Z)).   (* EphemeralSecretAgreement_B_extended with sike = 1 *)

(** randombytes into n bytes; sidh.c:26-48: the last byte masked *)
Definition rbytes (n : nat) (tp : tape) : out (list Z * tape) :=
  if (length tp <? n)%nat then NoTape else Ok (firstn n tp, skipn n tp).
Definition mask_last (n : nat) (mask : Z) (b : list Z) : list Z := upd (n - 1) (Z.land (nth (n - 1) b 0) mask) b.

(* sike.c:19-41; result (pk, sk) *)
Definition crypto_kem_keypair (tp : tape) : out (list Z * list Z * tape) :=
  do (s, tp) <- rbytes msgb tp;;
  do (b, tp) <- rbytes skB tp;;
  let b := mask_last skB maskB b in
  do pk <- keygen_B b;;
  Ok (pk, s ++ b ++ pk, tp).

Definition xor_bytes (a b : list Z) : list Z := map (fun '(x, y) => Z.lxor x y) (combine a b).
(* sike.c:62-63, 112-113: ephemeralsk = G(m || pk) mod oA *)
Definition eph (m pk : list Z) : list Z := mask_last skA maskA (shake256 skA (m ++ pk)).

(* sike.c:44-80; result (ct, ss) *)
Definition crypto_kem_enc (pk : list Z) (tp : tape) : out (list Z * list Z * tape) :=
  do (m, tp) <- rbytes msgb tp;;
  let e := eph m pk in
  do c0 <- keygen_A e;;
  do j <- agree_A e pk;;
  let h := shake256 msgb j in
  let ct := c0 ++ xor_bytes m h in
  Ok (ct, shake256 ssb (m ++ ct), tp).

(* sike.c:83-130; [temp] is the previous (uninitialised) content of the first MSG_BYTES of temp *)
Definition crypto_kem_dec (ct sk temp : list Z) : out (list Z) :=
  let b := firstn skB (skipn msgb sk) in
  let pk := skipn (msgb + skB) sk in
  do r <- agree_B b (firstn pkb ct);;
  do (temp, selector) <-
    match r with
    | None => Ok (temp, -1)
    | Some j =>
        let h := shake256 msgb j in
        let temp := xor_bytes (skipn pkb ct) h in
        do c0 <- keygen_A (eph temp pk);;
        Ok (temp, ct_compare c0 (firstn pkb ct))
    end;;
  let temp := ct_cmov temp (firstn msgb sk) selector in
  Ok (shake256 ssb (temp ++ ct)).
End Sike.
