(** Model of S/sidh.c (ephemeral SIDH key exchange) and of LADDER3PT, xTPL_fast of S/ec_isogeny.c over an operation
    record.  The tables A_gen and B_gen are a record of six elements (init_basis, sidh.c:14-24, only copies them). *)
From Verif Require Import Base Digits Out Params Fp Ops Ec Models.

(** The bytes of a private key as digits (fpx.c:63-72 decode_to_digits into a zeroed array; the digits above those
    needed for the bytes are not represented, LADDER3PT does not read them). *)
Definition key_digits (w : Z) (key : list Z) : list Z :=
  let nd := ((length key + digit_bytes w - 1) / digit_bytes w)%nat in
  digits_of_bytes w nd (key ++ repeat 0 (nd * digit_bytes w - length key)).

Record gens (O : fops) := mkGens { gP : T O; gQ : T O; gR : T O }.
Arguments mkGens {O}. Arguments gP {O}. Arguments gQ {O}. Arguments gR {O}.

Section Sidh.
Variable O : fops.
Notation add := (o_add O). Notation sub := (o_sub O). Notation madd := (o_madd O).
Notation msub := (o_msub O). Notation mul := (o_mul O). Notation sqr := (o_sqr O).
Notation T := (T O). Notation pt := (pt O). Notation one := (o_one O).

(** ** The three-point ladder *)
(* ec_isogeny.c:337-341 *)
Definition lad3_A24 (A : T) : T :=
  let A24 := one in
  let A24 := madd A24 A24 in
  let A24 := madd A A24 in
  let A24 := o_div2 O A24 in
  o_div2 O A24.
(* ec_isogeny.c:353-361; k iterations left, starting with bit i *)
Fixpoint lad3_loop (w : Z) (m : list Z) (A24 : T) (k i : nat) (prevbit : bool) (R0 R2 R : pt) : out (bool * pt * pt * pt) :=
  match k with
  | 0%nat => Ok (prevbit, R0, R2, R)
  | S k =>
      do bit <- ladder_bit w m i;;
      let '(R, R2) := swap_points O (xorb bit prevbit) R R2 in
      let '(R0, R2) := xDBLADD O R0 R2 (pX R) (pZ R) A24 in
      lad3_loop w m A24 k (S i) bit R0 R2 R
  end.
(* ec_isogeny.c:323-365; [nbits] is OALICE_BITS or OBOB_BITS - 1 *)
Definition LADDER3PT (w : Z) (xP xQ xPQ : T) (m : list Z) (nbits : nat) (A : T) : out pt :=
  do (prevbit, R0, R2, R) <- lad3_loop w m (lad3_A24 A) nbits 0 false (mkPt xQ one) (mkPt xPQ one) (mkPt xP one);;
  Ok (fst (swap_points O prevbit R R2)).

(* ec_isogeny.c:368-395 *)
Definition xTPL_fast (P : pt) (A2 : T) : pt :=
  let t1 := sqr (pX P) in
  let t2 := sqr (pZ P) in
  let t3 := add t1 t2 in
  let t4 := add (pX P) (pZ P) in
  let t4 := sqr t4 in
  let t4 := sub t4 t3 in
  let t4 := mul A2 t4 in
  let t4 := add t3 t4 in
  let t3 := sub t1 t2 in
  let t3 := sqr t3 in
  let t1 := mul t1 t4 in
  let t1 := add t1 t1 in
  let t1 := add t1 t1 in
  let t1 := sub t1 t3 in
  let t1 := sqr t1 in
  let t2 := mul t2 t4 in
  let t2 := add t2 t2 in
  let t2 := add t2 t2 in
  let t2 := sub t2 t3 in
  let t2 := sqr t2 in
  mkPt (mul (pX P) t2) (mul (pZ P) t1).
(* ec_isogeny.c:398-409 *)
Definition xTPLe_fast (P : pt) (A2 : T) (e : nat) : pt := Nat.iter e (fun Q => xTPL_fast Q A2) P.

(** ** The strategy loop with several points pushed through (sidh.c:91-117, 158-184) *)
Section TraverseL.
Variable C : Type.
Variable co : Type.
Variable mulm : C -> nat -> pt -> pt.
Variable get : pt -> C * co.
Variable ev : co -> pt -> pt.
Variables (maxr maxint : nat).
(** As Models.rows, with a list of extra points instead of an optional one. *)
Fixpoint rowsL (k row : nat) (c : C) (index : nat) (R : pt) (Qs : list pt) (stack : list (pt * nat))
  (strat : list nat) : out (C * pt * list pt) :=
  match k with
  | 0%nat => Ok (c, R, Qs)
  | S k =>
      do (index, R, stack, strat) <- descend O C mulm maxint (S maxint) c (maxr - row) index R stack strat;;
      let '(c, coeff) := get R in
      let stack := map (fun s => (ev coeff (fst s), snd s)) stack in
      let Qs := map (ev coeff) Qs in
      match stack with
      | [] => UB
      | (R, index) :: stack => rowsL k (S row) c index R Qs stack strat
      end
  end.
Definition traverseL (c : C) (R : pt) (Qs : list pt) (strat : list nat) : out (C * pt * list pt) :=
  rowsL (maxr - 1) 1 c 0 R Qs [] strat.
End TraverseL.

Variable P : params.
Notation e2 := (e2 P).
Variables gA gB : gens O.   (* A_gen, B_gen *)
Definition bob_bits : nat := Z.to_nat (obob_bits P - 1).
(* Pxxx_internal.h:52-53 *)
Definition skA_bytes : nat := (e2 + 7) / 8.
Definition skB_bytes : nat := (bob_bits + 7) / 8.

(* sidh.c:66-71 and 149-154: 8, 4, 6 as multiples of one: results A + 2, A - 2 (and 4), A for A = 6 *)
Definition start_consts : T * T * T :=
  let A24plus := one in
  let A24plus := madd A24plus A24plus in
  let C24 := madd A24plus A24plus in
  let A := madd A24plus C24 in
  let A24plus := madd C24 C24 in
  (A24plus, C24, A).

(** inv_3_way and the three multiplications, sidh.c:124-127, 191-194, and the encoding 130-132, 197-199 *)
Definition pack3 (P Q R : pt) : list Z :=
  let '(zP, zQ, zR) := inv_3_way O (pZ P) (pZ Q) (pZ R) in
  o_enc O (mul (pX P) zP) ++ o_enc O (mul (pX Q) zQ) ++ o_enc O (mul (pX R) zR).

(* sidh.c:77-89 (OALICE_BITS odd), 91-117: the isogeny of degree 2^e2 with kernel R; codomain and images *)
Definition kex_iso_A (A24plus C24 : T) (R : pt) (Qs : list pt) : out ((T * T) * list pt) :=
  let '(A24plus, C24, R, Qs) :=
    if Nat.odd e2 then
      let S := xDBLe O R A24plus C24 (e2 - 1) in
      let '(A24plus, C24) := get_2_isog O S in
      (A24plus, C24, eval_2_isog O R S, map (fun q => eval_2_isog O q S) Qs)
    else (A24plus, C24, R, Qs) in
  do (_, R, Qs) <- traverseL _ _ (mulm_A O) (get_4_isog O) (eval_4_isog O) (max_alice P) (max_int_alice P)
                     (A24plus, C24) R Qs (strat_alice P);;
  let '(c, coeff) := get_4_isog O R in
  Ok (c, map (eval_4_isog O coeff) Qs).
(* sidh.c:160-189: the isogeny of degree 3^e3 *)
Definition kex_iso_B (A24minus A24plus : T) (R : pt) (Qs : list pt) : out ((T * T) * list pt) :=
  do (_, R, Qs) <- traverseL _ _ (mulm_B O) (get_3_isog O) (eval_3_isog O) (max_bob P) (max_int_bob P)
                     (A24minus, A24plus) R Qs (strat_bob P);;
  let '(c, coeff) := get_3_isog O R in
  Ok (c, map (eval_3_isog O coeff) Qs).

(* sidh.c:52-135 *)
Definition EphemeralKeyGeneration_A (sk : list Z) : out (list Z) :=
  let '(A24plus, C24, A) := start_consts in
  do R <- LADDER3PT (radix P) (gP gA) (gQ gA) (gR gA) (key_digits (radix P) sk) e2 A;;
  do (_, l) <- kex_iso_A A24plus C24 R [mkPt (gP gB) one; mkPt (gQ gB) one; mkPt (gR gB) one];;
  match l with
  | [phiP; phiQ; phiR] => Ok (pack3 phiP phiQ phiR)
  | _ => UB
  end.
(* sidh.c:138-202 *)
Definition EphemeralKeyGeneration_B (sk : list Z) : out (list Z) :=
  let '(A24plus, A24minus, A) := start_consts in
  do R <- LADDER3PT (radix P) (gP gB) (gQ gB) (gR gB) (key_digits (radix P) sk) bob_bits A;;
  do (_, l) <- kex_iso_B A24minus A24plus R [mkPt (gP gA) one; mkPt (gQ gA) one; mkPt (gR gA) one];;
  match l with
  | [phiP; phiQ; phiR] => Ok (pack3 phiP phiQ phiR)
  | _ => UB
  end.

(* sidh.c:219-222, 331-334 *)
Definition unpack3 (pk : list Z) : T * T * T :=
  let k := (2 * fp_bytes P)%nat in
  (o_dec O (firstn k pk), o_dec O (firstn k (skipn k pk)), o_dec O (firstn k (skipn (2 * k) pk))).

(* sidh.c:205-268 *)
Definition EphemeralSecretAgreement_A (sk pk : list Z) : out (list Z) :=
  let '(x0, x1, x2) := unpack3 pk in
  let A := get_A O x0 x1 x2 in
  let C24 := madd one one in
  let A24plus := madd A C24 in
  let C24 := madd C24 C24 in
  do R <- LADDER3PT (radix P) x0 x1 x2 (key_digits (radix P) sk) e2 A;;
  do ((A24plus, C24), _) <- kex_iso_A A24plus C24 R [];;
  let A24plus := madd A24plus A24plus in
  let A24plus := sub A24plus C24 in
  let A24plus := add A24plus A24plus in
  Ok (o_enc O (j_inv O A24plus C24)).

(** [differ x y]: the result of memcmp on the first 2 NBITS_TO_NBYTES(NBITS_FIELD) bytes of the two corrected f2elm_t is
    not 0; [square]: is_sqr_fp2, called for p610 only; both are parameters here. *)
Variable differ : T -> T -> bool.
Variable square : option (T -> bool).
(* sidh.c:271-315 publickey_validation; true: valid (return value 0).  fp2correction followed by is_felm_zero on both
   components is written as a comparison with zero. *)
Definition publickey_validation (x0 x1 A A24plus A24minus : T) : bool :=
  let A2 := o_div2 O A in
  let P0 := xTPLe_fast (mkPt x0 one) A2 (max_bob P - 1) in
  let Q0 := xTPLe_fast (mkPt x1 one) A2 (max_bob P - 1) in
  if is0 O (pZ P0) || is0 O (pZ Q0) then false else
  if negb (differ (mul (pX P0) (pZ Q0)) (mul (pZ P0) (pX Q0))) then false else
  let P1 := xTPL_fast P0 A2 in
  let Q1 := xTPL_fast Q0 A2 in
  if negb (is0 O (pZ P1)) || negb (is0 O (pZ Q1)) then false else
  match square with
  | Some sq => sq A24plus && sq A24minus
  | None => true
  end.
(* sidh.c:318-382, with PK_VALIDATION (config.h:96); [None]: return value 1 *)
Definition EphemeralSecretAgreement_B_extended (sk pk : list Z) (sike : bool) : out (option (list Z)) :=
  let '(x0, x1, x2) := unpack3 pk in
  let A := get_A O x0 x1 x2 in
  let A24minus := madd one one in
  let A24plus := madd A A24minus in
  let A24minus := msub A A24minus in
  if sike && negb (publickey_validation x0 x1 A A24plus A24minus) then Ok None else
  do R <- LADDER3PT (radix P) x0 x1 x2 (key_digits (radix P) sk) bob_bits A;;
  do ((A24minus, A24plus), _) <- kex_iso_B A24minus A24plus R [];;
  let A := add A24plus A24minus in
  let A := add A A in
  let A24plus := sub A24plus A24minus in
  Ok (Some (o_enc O (j_inv O A A24plus))).
(* sidh.c:385-394 *)
Definition EphemeralSecretAgreement_B (sk pk : list Z) : out (option (list Z)) :=
  EphemeralSecretAgreement_B_extended sk pk false.
End Sidh.
