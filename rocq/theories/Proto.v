(** Model of S/poik.c:842-1500 over an operation record: packing, isogeny chains, responses, Generate,
    Prove, Verify.  Random bytes come from explicit tapes: one for the main thread and one per index
    handed to a worker (run_threads is modelled separately in Threads.v; here the loops are the ones of
    the #else branches). *)
From Verif Require Import Base Digits Out Params Fp Poik Hashing Codec Ops Ec Models.

Section Proto.
Variable K : pok.
Variable O : fops.
Notation P := (fpar K).
Notation curve := (curve O). Notation pt := (pt O). Notation miso := (miso O).
Notation one := (o_one O). Notation zero := (o_zero O).
(** Content of the uninitialised locals of Check_Curve. *)
Variable junk : pt.

(** ** Packing *)
(* poik.c:932-947 pack_curve *)
Definition pack_curve (E : curve) : out (list Z) := do iso <- canonical_model O E;; Ok (o_enc O (iB iso)).
(* poik.c:932-947 pack_point *)
Definition pack_point (E : curve) (R : pt) : out (list Z) :=
  do iso <- canonical_model O E;;
  let Q := eval_iso O iso R in
  Ok (fp2div_enc O (pX Q) (pZ Q)).
(* poik.c:948 unpack_curve: the curve, and the check when asked for *)
Definition unpack_curve (a : list Z) : curve := mkCurve (o_dec O a) one.
Definition check_packed (a : list Z) (tp : tape) : out (bool * tape) := Check_Curve O P junk (unpack_curve a) tp.
(* poik.c:949 unpack_point *)
Definition unpack_point (x : list Z) : pt := mkPt (o_dec O x) one.

(** ** Verifying a chain *)
(* poik.c:1043-1050 / 1067-1074, the change to the canonical model in front of step i > 0 *)
Definition to_canonical (E : curve) (back : pt) : out (curve * pt) :=
  do iso <- canonical_model O E;;
  Ok (mkCurve (iB iso) one, eval_iso O iso back).
(* poik.c:1037-1059, steps i = 1 .. POIK_WIDTH-1 *)
Fixpoint chain_A_loop (E : curve) (back : pt) (xs : list (list Z)) : out (option (curve * pt)) :=
  match xs with
  | [] => Ok (Some (E, back))
  | x :: xs =>
      do (E, back) <- to_canonical E back;;
      do r <- Isogeny_A O P E (unpack_point x) (Some back);;
      match r with
      | Some (E, Some back) => chain_A_loop E back xs
      | _ => Ok None
      end
  end.
(* poik.c:1037-1059; the result of Check_Curve is ignored.  [Some E]: true and *E; [None]: false. *)
Definition Unpack_Chain_A (E0 : list Z) (xs : list (list Z)) (tp : tape) : out (option curve * tape) :=
  do (_, tp) <- check_packed E0 tp;;
  match xs with
  | [] => UB (* POIK_WIDTH = 0: back is read uninitialised *)
  | x :: xs =>
      do r <- Isogeny_A O P (unpack_curve E0) (unpack_point x) None;;
      match r with
      | None => Ok (None, tp)
      | Some (E, _) =>
          do r <- chain_A_loop E (back_A O) xs;;
          match r with
          | None => Ok (None, tp)
          | Some (E, back) => Ok (if is0 O (pZ back) then None else Some E, tp)
          end
      end
  end.
(* poik.c:1061-1083, steps i = 1 .. POIK_HEIGHT-1 *)
Fixpoint chain_B_loop (E : curve) (back : pt) (xs : list (list Z)) (tp : tape) : out (option (curve * pt) * tape) :=
  match xs with
  | [] => Ok (Some (E, back), tp)
  | x :: xs =>
      do (E, back) <- to_canonical E back;;
      do (r, tp) <- Isogeny_B O P E (unpack_point x) (Some back) false tp;;
      match r with
      | Some (E, Some back, _) => chain_B_loop E back xs tp
      | _ => Ok (None, tp)
      end
  end.
(* poik.c:1061-1083; back = {0} initially *)
Definition Unpack_Chain_B (E0 : list Z) (xs : list (list Z)) (tp : tape) : out (option curve * tape) :=
  do (_, tp) <- check_packed E0 tp;;
  match xs with
  | [] => Ok (if is0 O zero then None else Some (unpack_curve E0), tp)
  | x :: xs =>
      do (r, tp) <- Isogeny_B O P (unpack_curve E0) (unpack_point x) None true tp;;
      match r with
      | Some (E, _, Some back) =>
          do (r, tp) <- chain_B_loop E back xs tp;;
          match r with
          | None => Ok (None, tp)
          | Some (E, back) => Ok (if is0 O (pZ back) then None else Some E, tp)
          end
      | _ => Ok (None, tp)
      end
  end.

(* poik.c:1086-1091 *)
Definition enc_j (E : curve) : list Z := o_enc O (j_inv O (cA E) (cC E)).

(** ** One response *)
Definition to_int8 (x : Z) : Z := (x + 128) mod 256 - 128.
Definition left_xs (r : response) : list (list Z) := map (left_x K r) (seq 0 (height K)).
Definition bottom_xs (r : response) : list (list Z) := map (bottom_x K r) (seq 0 (width K)).
Definition right_xs (r : response) : list (list Z) := map (right_x K r) (seq 0 (height K)).
(* poik.c:1200-1239; [Some (h2, h3)]: true and the commitment; the tag written to *which is
   [to_int8 (r_tag r)] in every case *)
Definition Unpack_Response (prf : proof) (r : response) (tp : tape) : out (option (list Z * list Z) * tape) :=
  let tag := to_int8 (r_tag r) in
  if tag =? RESP_LEFT then
    do (E2, tp) <- Unpack_Chain_B (p_E0 prf) (left_xs r) tp;;
    match E2 with
    | None => Ok (None, tp)
    | Some E2 => Ok (Some (hash_hiding K (left_r2 K r) (enc_j E2), left_h3 K r), tp)
    end
  else if tag =? RESP_BOTTOM then
    do (ok, tp) <- check_packed (bottom_E2 K r) tp;;
    if ok : bool then
      do (E3, tp) <- Unpack_Chain_A (bottom_E2 K r) (bottom_xs r) tp;;
      match E3 with
      | None => Ok (None, tp)
      | Some E3 => Ok (Some (hash_hiding K (bottom_r2 K r) (enc_j (unpack_curve (bottom_E2 K r))),
                             hash_hiding K (bottom_r3 K r) (enc_j E3)), tp)
      end
    else Ok (None, tp)
  else if tag =? RESP_RIGHT then
    do (E3, tp) <- Unpack_Chain_B (p_E1 prf) (right_xs r) tp;;
    match E3 with
    | None => Ok (None, tp)
    | Some E3 => Ok (Some (right_h2 K r, hash_hiding K (right_r3 K r) (enc_j E3)), tp)
    end
  else Ok (None, tp).

(* poik.c:1488-1492; [Some hs]: every response was accepted *)
Fixpoint responses (prf : proof) (tps : nat -> tape) (i : nat) (rs : list response)
  : out (option (list (list Z * list Z))) :=
  match rs with
  | [] => Ok (Some [])
  | r :: rs =>
      do (c, _) <- Unpack_Response prf r (tps i);;
      match c with
      | None => Ok None
      | Some c => do cs <- responses prf tps (S i) rs;;
                  Ok (match cs with Some cs => Some (c :: cs) | None => None end)
      end
  end.
(* poik.c:1464-1500; [fuel] bounds the number of hash blocks squeezed for the challenge *)
Definition Verify (fuel : nat) (prf : proof) (tp : tape) (tps : nat -> tape) : out bool :=
  do (ok0, tp) <- check_packed (p_E0 prf) tp;;
  if negb ok0 then Ok false else
  do (ok1, tp) <- check_packed (p_E1 prf) tp;;
  if negb ok1 then Ok false else
  do hs <- responses prf tps 0 (p_resp prf);;
  match hs with
  | None => Ok false
  | Some hs =>
      let comm := mkComm (enc_j (unpack_curve (p_E0 prf))) (enc_j (unpack_curve (p_E1 prf))) hs in
      let tags := map (fun r => to_int8 (r_tag r)) (p_resp prf) in
      do challenge <- Challenge K fuel comm (repeat 0 (reps K));;
      Ok (if list_eq_dec Z.eq_dec challenge tags then true else false)
  end.

(** ** The prover *)
(** chain_A, chain_B (poik.c:18-26) *)
Record chain := mkChain { chE : list curve; chP : list pt }.
(* poik.c:846-889 (NDEBUG); a failing Isogeny_A leaves the next curve uninitialised: [UB] *)
Definition Pback_A : pt := mkPt zero (o_unit O).
Fixpoint random_chain_A (k : nat) (first : bool) (E : curve) (tp : tape) : out (list curve * list pt * tape) :=
  match k with
  | 0%nat => Ok ([E], [], tp)
  | S k =>
      do (R, tp) <- Random_Point_AB O P E true (if first then None else Some Pback_A) tp;;
      do r <- Isogeny_A O P E R None;;
      match r with
      | None => UB
      | Some (E', _) =>
          do (Es, Ps, tp) <- random_chain_A k false E' tp;;
          Ok (E :: Es, R :: Ps, tp)
      end
  end.
Definition Random_Isogeny_Chain_A (E0 : curve) (tp : tape) : out (chain * tape) :=
  do (Es, Ps, tp) <- random_chain_A (width K) true E0 tp;; Ok (mkChain Es Ps, tp).
(* poik.c:891-929 (NDEBUG) *)
Fixpoint random_chain_B (k : nat) (back : option pt) (E : curve) (tp : tape) : out (list curve * list pt * tape) :=
  match k with
  | 0%nat => Ok ([E], [], tp)
  | S k =>
      do (R, tp) <- Random_Point_AB O P E false back tp;;
      do (r, tp) <- Isogeny_B O P E R None true tp;;
      match r with
      | None => UB
      | Some (E', _, back) =>
          do (Es, Ps, tp) <- random_chain_B k back E' tp;;
          Ok (E :: Es, R :: Ps, tp)
      end
  end.
Definition Random_Isogeny_Chain_B (E0 : curve) (tp : tape) : out (chain * tape) :=
  do (Es, Ps, tp) <- random_chain_B (height K) None E0 tp;; Ok (mkChain Es Ps, tp).

(** struct secret (poik.h:56-59) *)
Record secret := mkSecret { sE : list (list Z); sP : list (list Z) }.
(* poik.c:1389-1404 *)
Definition Generate (E0 : list Z) (tp : tape) : out (option secret * tape) :=
  do (ok, tp) <- check_packed E0 tp;;
  if ok : bool then
    do (c, tp) <- Random_Isogeny_Chain_A (unpack_curve E0) tp;;
    Ok (Some (mkSecret (map (fun E => fp2div_enc O (cA E) (cC E)) (chE c))
                       (map (fun R => fp2div_enc O (pX R) (pZ R)) (chP c))), tp)
  else Ok (None, tp).

(** randombytes_strict into a buffer of n bytes *)
Definition take_bytes (n : nat) (tp : tape) : out (list Z * tape) :=
  if (length tp <? n)%nat then NoTape else Ok (firstn n tp, skipn n tp).

(* poik.c:1116-1132, one row: the columns from left to right.  Results: the new bottom curves and
   points, and El, Kl at the right end. *)
Fixpoint square_row (Es : list curve) (Ps : list pt) (El : curve) (Kl : pt)
  : out (list curve * list pt * curve * pt) :=
  match Es, Ps with
  | Et :: Es, Kt :: Ps =>
      do a <- Isogeny_A O P Et Kt (Some Kl);;
      do (b, _) <- Isogeny_B O P El Kl (Some Kt) false [];;
      match a, b with
      | Some (Er, Some Kr), Some (Eb, Some Kb, _) =>
          do (Es', Ps', E, R) <- square_row Es Ps Er Kr;;
          Ok (Eb :: Es', Kb :: Ps', E, R)
      | _, _ => UB
      end
  | _, _ => Ok ([], [], El, Kl)
  end.
(* poik.c:1113-1135, all rows; results: bottom curves (without the last) and points, right chain *)
Fixpoint square_rows (left : list (curve * pt)) (Es : list curve) (Ps : list pt)
  : out (list curve * list pt * list (curve * pt)) :=
  match left with
  | [] => Ok (Es, Ps, [])
  | (El, Kl) :: l =>
      do (Es, Ps, Er, Kr) <- square_row Es Ps El Kl;;
      do (Es, Ps, rgt) <- square_rows l Es Ps;;
      Ok (Es, Ps, (Er, Kr) :: rgt)
  end.
(** struct instance (poik.c:28-35) *)
Record inst := mkInst { i_r2 : list Z; i_r3 : list Z; i_E2 : curve; i_E3 : curve;
                        i_left : chain; i_bottom : chain; i_right : chain }.
(* poik.c:1102-1152 *)
Definition Instance (sec : secret) (tp : tape) : out (inst * (list Z * list Z) * tape) :=
  let bE := map unpack_curve (sE sec) in
  let bP := map unpack_point (sP sec) in
  match bE with
  | [] => UB
  | E0 :: _ =>
      do (lft, tp) <- Random_Isogeny_Chain_B E0 tp;;
      do (bE, bP, rgt) <- square_rows (combine (chE lft) (chP lft)) (firstn (width K) bE) bP;;
      match rev bE, rev bP, rev rgt, rev (chE lft) with
      | El :: _, Pl :: _, (Er, Pr) :: _, E2 :: _ =>
          do a <- Isogeny_A O P El Pl None;;
          do (b, tp) <- Isogeny_B O P Er Pr None false tp;;
          match a, b with
          | Some (Ea, _), Some (Eb, _, _) =>
              do (r2, tp) <- take_bytes (hide_bytes K) tp;;
              do (r3, tp) <- take_bytes (hide_bytes K) tp;;
              Ok (mkInst r2 r3 E2 Eb lft (mkChain (bE ++ [Ea]) bP)
                    (mkChain (map fst rgt ++ [Eb]) (map snd rgt)),
                  (hash_hiding K r2 (enc_j E2), hash_hiding K r3 (enc_j Eb)), tp)
          | _, _ => UB
          end
      | _, _, _, _ => UB
      end
  end.

(* SECRETKEY_A_BYTES, Pxxx_internal.h; sidh.c:26-35 random_mod_order_A; poik.c:953-959.  The digits
   above those needed for SECRETKEY_A_BYTES bytes are not represented (Ladder reads e2 bits). *)
Definition secretkey_a_bytes : nat := (e2 P + 7) / 8.
Definition random_odd_A (tp : tape) : out (list Z * tape) :=
  do (buf, tp) <- take_bytes secretkey_a_bytes tp;;
  let buf := upd (secretkey_a_bytes - 1) (Z.land (nth (secretkey_a_bytes - 1) buf 0) (mask_alice P)) buf in
  let buf := upd 0 (Z.lor (nth 0 buf 0) 1) buf in
  let nd := ((secretkey_a_bytes + digit_bytes (radix P) - 1) / digit_bytes (radix P))%nat in
  Ok (digits_of_bytes (radix P) nd (buf ++ repeat 0 (nd * digit_bytes (radix P) - secretkey_a_bytes)), tp).
(* poik.c:951-999 (NDEBUG) *)
Fixpoint Pack_Chain_A (c : list (curve * pt)) (tp : tape) : out (list (list Z) * tape) :=
  match c with
  | [] => Ok ([], tp)
  | (E, R) :: c =>
      do (scalar, tp) <- random_odd_A tp;;
      let A := fp2div O (cA E) (cC E) in
      do Q <- Ladder O (radix P) R scalar A (e2 P);;
      do x <- pack_point E Q;;
      do (xs, tp) <- Pack_Chain_A c tp;;
      Ok (x :: xs, tp)
  end.
(* poik.c:1001-1035 (NDEBUG) *)
Fixpoint Pack_Chain_B (c : list (curve * pt)) : out (list (list Z)) :=
  match c with
  | [] => Ok []
  | (E, R) :: c =>
      do x <- pack_point E R;;
      do xs <- Pack_Chain_B c;;
      Ok (x :: xs)
  end.
Definition pairs (c : chain) : list (curve * pt) := combine (chE c) (chP c).
(* poik.c:1172-1198; [old] is the previous content of the union *)
Definition fill (old bytes : list Z) : list Z := bytes ++ skipn (length bytes) old.
Definition Pack_Response (which : Z) (v : inst) (c : list Z * list Z) (old : list Z) (tp : tape)
  : out (response * tape) :=
  if which =? RESP_LEFT then
    do xs <- Pack_Chain_B (pairs (i_left v));;
    Ok (mkResp which (fill old (i_r2 v ++ snd c ++ concat xs)), tp)
  else if which =? RESP_BOTTOM then
    do a <- pack_curve (i_E2 v);;
    do (xs, tp) <- Pack_Chain_A (pairs (i_bottom v)) tp;;
    Ok (mkResp which (fill old (i_r2 v ++ i_r3 v ++ a ++ concat xs)), tp)
  else if which =? RESP_RIGHT then
    do xs <- Pack_Chain_B (pairs (i_right v));;
    Ok (mkResp which (fill old (fst c ++ i_r3 v ++ concat xs)), tp)
  else UB.

Fixpoint instances (sec : secret) (tps : nat -> tape) (i k : nat) : out (list (inst * (list Z * list Z))) :=
  match k with
  | 0%nat => Ok []
  | S k => do (v, c, _) <- Instance sec (tps i);;
           do l <- instances sec tps (S i) k;;
           Ok ((v, c) :: l)
  end.
Fixpoint pack_responses (l : list (Z * (inst * (list Z * list Z)))) (olds : nat -> list Z) (tps : nat -> tape)
  (i : nat) : out (list response) :=
  match l with
  | [] => Ok []
  | (which, (v, c)) :: l =>
      do (r, _) <- Pack_Response which v c (olds i) (tps i);;
      do rs <- pack_responses l olds tps (S i);;
      Ok (r :: rs)
  end.
(* poik.c:1406-1461; [tps]: tapes of the Instance calls, [tps2]: of the Pack_Response calls, [olds]:
   previous content of the responses *)
Definition Prove (fuel : nat) (sec : secret) (olds : nat -> list Z) (tps tps2 : nat -> tape) : out proof :=
  let E0 := unpack_curve (nth 0 (sE sec) []) in
  let E1 := unpack_curve (nth (width K) (sE sec) []) in
  do l <- instances sec tps 0 (reps K);;
  let comm := mkComm (enc_j E0) (enc_j E1) (map snd l) in
  do chall <- Challenge K fuel comm (repeat 0 (reps K));;
  do a0 <- pack_curve E0;;
  do a1 <- pack_curve E1;;
  do rs <- pack_responses (combine chall l) olds tps2 0;;
  Ok (mkProof a0 a1 rs).
End Proto.
