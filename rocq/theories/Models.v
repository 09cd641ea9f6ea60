(** Model of the curve layer of S/poik.c:100-840 over an operation record: coefficient conversions,
    random points, Montgomery models, the ladder, isogenies of degree 2^e2 and 3^e3, the curve check. *)
From Verif Require Import Base Out Params Ops Ec.

Section Models.
Variable O : fops.
Notation add := (o_add O). Notation sub := (o_sub O).
Notation mul := (o_mul O). Notation sqr := (o_sqr O).
Notation T := (T O). Notation pt := (pt O). Notation curve := (curve O). Notation miso := (miso O).
Notation one := (o_one O). Notation zero := (o_zero O).

(* poik.c:89-90 fp2_iszero *)
Definition is0 (x : T) : bool := o_eq O x zero.
(* poik.c:92-100 proj_equal, curve_equal, point_equal *)
Definition proj_equal (X1 Z1 X2 Z2 : T) : bool := o_eq O (mul X1 Z2) (mul X2 Z1).
Definition point_equal (P Q : pt) : bool := proj_equal (pX P) (pZ P) (pX Q) (pZ Q).
Definition curve_equal (E F : curve) : bool := proj_equal (cA E) (cC E) (cA F) (cC F).

(* poik.c:115-122 fp2div *)
Definition fp2div (x z : T) : T := mul x (o_inv O z).
(* poik.c:123-128 fp2div_enc *)
Definition fp2div_enc (x z : T) : list Z := o_enc O (fp2div x z).

(* poik.c:139-222 fp2sqrt; the return value *)
Definition fp2sqrt (x : T) (known_square : bool) : T * bool :=
  let y := o_sqrt O x in
  if known_square then (y, true) else (y, o_eq O (sqr y) x).

(* poik.c:246-255; result (A24plus, A24minus, C24) *)
Definition AC_to_AAC24 (E : curve) : T * T * T :=
  let CC := add (cC E) (cC E) in
  let A24plus := add (cA E) CC in
  let CC := add CC CC in
  let A24minus := sub A24plus CC in
  (A24plus, A24minus, CC).
(* poik.c:257-263 *)
Definition AC24_to_AC (A24plus C24 : T) : curve :=
  let A := add A24plus A24plus in
  let A := sub A C24 in
  let A := add A A in
  mkCurve A C24.
(* poik.c:265-271 *)
Definition AA24_to_AC (A24minus A24plus : T) : curve :=
  let A := add A24plus A24minus in
  let C := add A24minus A24minus in
  let C := sub A C in
  let A := add A A in
  mkCurve A C.

(** ** Random points *)
(* poik.c:283-288, the right hand side of the curve equation *)
Definition curve_rhs (A x : T) : T :=
  let rhs := add A x in
  let rhs := mul rhs x in
  let rhs := o_add1 O rhs in
  mul rhs x.
(* poik.c:276-297; every iteration reads random bytes, so the loop is bounded by the tape *)
Fixpoint random_point_loop (fuel : nat) (A : T) (tp : tape) : out (pt * tape) :=
  match fuel with
  | 0%nat => NoFuel
  | S f =>
      do (x, tp) <- o_rand O tp;;
      let (y, sq) := fp2sqrt (curve_rhs A x) false in
      if sq then Ok (mkPt x one, tp) else random_point_loop f A tp
  end.
Definition random_point (A : T) (tp : tape) : out (pt * tape) := random_point_loop (S (length tp)) A tp.

(** Bounds of the counting loops: the loops of random_point_with_order run at most 9998 times before
    fail(), those of Check_Curve and Random_Point_AB 9999 times. *)
Definition n9998 : nat := 2 * 4999.
Definition n9999 : nat := 99 * 101.

Section Rpwo.
Variables (e2 e3 : nat).
Definition rp_consts (A : T) : T * T * T :=
  let C24 := add one one in
  let A24plus := add A C24 in
  let A24minus := sub A C24 in
  let C24 := add C24 C24 in
  (A24plus, A24minus, C24).
(* poik.c:312-325, first loop; [l2]: l = 2, otherwise l = 3 *)
Fixpoint rpwo_pick (k : nat) (l2 : bool) (A : T) (tp : tape) : out (pt * tape) :=
  match k with
  | 0%nat => Abort
  | S k =>
      let '(A24plus, A24minus, C24) := rp_consts A in
      do (P, tp) <- random_point A tp;;
      let P := if l2 then xTPLe O P A24minus A24plus e3 else xDBLe O P A24plus C24 e2 in
      if is0 (pZ P) then rpwo_pick k l2 A tp else Ok (P, tp)
  end.
(* poik.c:327-343, second loop *)
Fixpoint rpwo_order (k : nat) (l2 : bool) (A : T) (Q : pt) (e : nat) : out (nat * pt) :=
  match k with
  | 0%nat => Abort
  | S k =>
      let '(A24plus, A24minus, C24) := rp_consts A in
      let T := if l2 then xDBL O Q A24plus C24 else xTPL O Q A24minus A24plus in
      if is0 (pZ T) then Ok (e, Q) else rpwo_order k l2 A T (S e)
  end.
(* poik.c:299-356; result (P, e, Q) *)
Definition random_point_with_order (A : T) (l2 : bool) (tp : tape) : out (pt * nat * pt * tape) :=
  do (P, tp) <- rpwo_pick n9998 l2 A tp;;
  do (e, Q) <- rpwo_order n9998 l2 A P 1;;
  Ok (P, e, Q, tp).
End Rpwo.

(** ** Montgomery models *)
(* poik.c:361-367 *)
Definition eval_iso (iso : miso) (P : pt) : pt :=
  let rz := mul (ir iso) (pZ P) in
  mkPt (sub (pX P) rz) (mul (iu2 iso) (pZ P)).

(* poik.c:370-405 solve_quadratic: sols[0], sols[1] and whether fp2_equal(sols[0], sols[1]).
   The C function returns 2 - fp2_equal, i.e. 2, or 2 - 255 as a size_t when the solutions agree. *)
Definition solve_quadratic (A : T) : T * T * bool :=
  let four := one in
  let four := add four four in
  let four := add four four in
  let disc := sqr A in
  let disc := sub disc four in
  let '(sqrt_disc, _) := fp2sqrt disc true in
  let s0 := sub sqrt_disc A in
  let s0 := o_div2 O s0 in
  let s1 := sub s0 sqrt_disc in
  (s0, s1, o_eq O s0 s1).

(* poik.c:432-450, body of the loop over i: two models; [UB] when solve_quadratic returned the huge
   count (the loop over j then reads x4[2] and writes behind iso[5]) *)
Definition two_models (A x2 : T) : out (list miso) :=
  let min2x2 := add x2 x2 in
  let min2x2 := o_neg O min2x2 in
  let '(x40, x41, same) := solve_quadratic min2x2 in
  if same then UB else
  let model x4 :=
    let u2 := sub x4 x2 in
    let B := sub x2 min2x2 in
    let B := add B A in
    let B := fp2div B u2 in
    mkIso B x2 u2 in
  Ok [model x40; model x41].
(* poik.c:407-482 (NDEBUG) *)
Definition all_models (E : curve) : out (list miso) :=
  let A := fp2div (cA E) (cC E) in
  let iso0 := mkIso A zero one in
  let iso1 := mkIso (o_neg O A) zero (o_neg O one) in
  let '(x20, x21, same) := solve_quadratic A in
  if same then UB else
  do l0 <- two_models A x20;;
  do l1 <- two_models A x21;;
  Ok (iso0 :: iso1 :: l0 ++ l1).
(* poik.c:485-503; ct_cmov as a conditional (FpMiscP.ct_cmov_spec) *)
Definition pick_smaller (iso cand : miso) : miso := if o_lt O (iB cand) (iB iso) then cand else iso.
Definition canonical_model (E : curve) : out miso :=
  do all <- all_models E;;
  match all with
  | [] => UB
  | iso :: rest => Ok (fold_left pick_smaller rest iso)
  end.
(* poik.c:505-513; result (iso, identity) *)
Definition change_model (E : curve) : out (miso * miso) :=
  do all <- all_models E;;
  match all with
  | identity :: _ :: iso :: _ => Ok (iso, identity)
  | _ => UB
  end.

(** ** Scalar multiplication *)
(* poik.c:518-547; m has RADIX = w bits per digit *)
Definition ladder_bit (w : Z) (m : list Z) (i : nat) : out bool :=
  match nth_error m (i / Z.to_nat w) with
  | None => UB
  | Some d => Ok (Z.testbit d (Z.of_nat (i mod Z.to_nat w)))
  end.
Fixpoint ladder_loop (w : Z) (m : list Z) (P : pt) (A24 : T) (i : nat) (prevbit : bool) (R0 R1 : pt)
  : out (bool * pt * pt) :=
  match i with
  | 0%nat => Ok (prevbit, R0, R1)
  | S i =>
      do bit <- ladder_bit w m i;;
      let '(R0, R1) := swap_points O (xorb bit prevbit) R0 R1 in
      let '(R0, R1) := xDBLADD O R0 R1 (pX P) (pZ P) A24 in
      ladder_loop w m P A24 i bit R0 R1
  end.
Definition ladder_A24 (A : T) : T :=
  let A24 := o_add1 O one in
  let A24 := add A A24 in
  let A24 := o_div2 O A24 in
  o_div2 O A24.
Definition Ladder (w : Z) (P : pt) (m : list Z) (A : T) (order_bits : nat) : out pt :=
  do (prevbit, R0, R1) <- ladder_loop w m P (ladder_A24 A) order_bits false (mkPt one zero) P;;
  Ok (fst (swap_points O prevbit R0 R1)).

(** ** Isogenies of degree 2^e2 and 3^e3 *)
(** The strategy loop shared by Isogeny_A (poik.c:605-634) and Isogeny_B (poik.c:672-699): [mulm] is
    xDBLe by 2m resp. xTPLe by m, [get]/[ev] are get_4_isog/eval_4_isog resp. get_3_isog/eval_3_isog.
    pts/pts_index are a stack, top first; [maxint] is the size of the arrays.  Reading the strategy
    table past its end, pushing on a full stack, popping the empty one: [UB]. *)
Section Traverse.
Variable C : Type.
Variable co : Type.
Variable mulm : C -> nat -> pt -> pt.
Variable get : pt -> C * co.
Variable ev : co -> pt -> pt.
Variables (maxr maxint : nat).

Fixpoint descend (fuel : nat) (c : C) (bound : nat) (index : nat) (R : pt) (stack : list (pt * nat))
  (strat : list nat) : out (nat * pt * list (pt * nat) * list nat) :=
  if (index <? bound)%nat then
    match fuel with
    | 0%nat => NoFuel
    | S fuel =>
        if (length stack <? maxint)%nat then
          match strat with
          | [] => UB
          | m :: strat => descend fuel c bound (index + m) (mulm c m R) ((R, index) :: stack) strat
          end
        else UB
    end
  else Ok (index, R, stack, strat).

Definition omap (f : pt -> pt) (q : option pt) : option pt := match q with Some p => Some (f p) | None => None end.

(** k rows left, starting with row number [row] *)
Fixpoint rows (k row : nat) (c : C) (index : nat) (R : pt) (Q : option pt) (stack : list (pt * nat))
  (strat : list nat) : out (C * pt * option pt) :=
  match k with
  | 0%nat => Ok (c, R, Q)
  | S k =>
      do (index, R, stack, strat) <- descend (S maxint) c (maxr - row) index R stack strat;;
      let '(c, coeff) := get R in
      let stack := map (fun s => (ev coeff (fst s), snd s)) stack in
      let Q := omap (ev coeff) Q in
      match stack with
      | [] => UB
      | (R, index) :: stack => rows k (S row) c index R Q stack strat
      end
  end.
Definition traverse (c : C) (R : pt) (Q : option pt) (strat : list nat) : out (C * pt * option pt) :=
  rows (maxr - 1) 1 c 0 R Q [] strat.
End Traverse.

Variable P : params.
Notation e2 := (e2 P). Notation e3 := (e3 P).

Definition mulm_A (c : T * T) (m : nat) (R : pt) : pt := xDBLe O R (fst c) (snd c) (2 * m).
Definition mulm_B (c : T * T) (m : nat) (R : pt) : pt := xTPLe O R (fst c) (snd c) m.

(* poik.c:554-646.  Result: the codomain and the image of Q, or [None] for false.  The output "back"
   is the constant [back_A] (poik.c:640-643). *)
Definition back_A : pt := mkPt zero one.
Definition Isogeny_A (E : curve) (K : pt) (Q : option pt) : out (option (curve * option pt)) :=
  let '(A24plus, _, C24) := AC_to_AAC24 E in
  let R := K in
  (* 563-584 *)
  let above_00 := is0 (pX (xDBLe O R A24plus C24 (e2 - 1))) in
  do (other, identity) <- change_model E;;
  let iso := if above_00 then other else identity in
  let '(A24plus, _, C24) := AC_to_AAC24 (mkCurve (iB iso) one) in
  let R := eval_iso iso R in
  let Q := omap (eval_iso iso) Q in
  (* 586-594 *)
  let T := xDBLe O R A24plus C24 (e2 - 1) in
  let N := xDBL O T A24plus C24 in
  if is0 (pZ T) || negb (is0 (pZ N)) then Ok None else
  (* 596-605, only when OALICE_BITS is odd *)
  let '(A24plus, C24, R, Q) :=
    if Nat.odd e2 then
      let S := xDBLe O R A24plus C24 (e2 - 1) in
      let '(A24plus, C24) := get_2_isog O S in
      (A24plus, C24, eval_2_isog O R S, omap (fun q => eval_2_isog O q S) Q)
    else (A24plus, C24, R, Q) in
  (* 607-634 *)
  do (_, R, Q) <- traverse _ _ mulm_A (get_4_isog O) (eval_4_isog O) (max_alice P) (max_int_alice P)
                    (A24plus, C24) R Q (strat_alice P);;
  (* 636-639 *)
  let '((A24plus, C24), coeff) := get_4_isog O R in
  let Q := omap (eval_4_isog O coeff) Q in
  Ok (Some (AC24_to_AC A24plus C24, Q)).

(* poik.c:701-713, the search for a point of order 3 outside the kernel of the last step; every
   iteration reads random bytes, so the loop is bounded by the tape *)
Fixpoint back_B_loop (fuel : nat) (A : T) (R : pt) (tp : tape) : out (pt * tape) :=
  match fuel with
  | 0%nat => NoFuel
  | S f =>
      do (_, _, back, tp) <- random_point_with_order e2 e3 A false tp;;
      if point_equal back R then back_B_loop f A R tp else Ok (back, tp)
  end.
(* poik.c:651-723.  [want_back]: back is not NULL. *)
Definition Isogeny_B (E : curve) (K : pt) (Q : option pt) (want_back : bool) (tp : tape)
  : out (option (curve * option pt * option pt) * tape) :=
  let '(A24plus, A24minus, _) := AC_to_AAC24 E in
  let R := K in
  let T := xTPLe O R A24minus A24plus (e3 - 1) in
  let N := xTPL O T A24minus A24plus in
  if is0 (pZ T) || negb (is0 (pZ N)) then Ok (None, tp) else
  do (c, R, Q) <- traverse _ _ mulm_B (get_3_isog O) (eval_3_isog O) (max_bob P) (max_int_bob P)
                    (A24minus, A24plus) R Q (strat_bob P);;
  do (back, tp) <-
    (if want_back then
       let E := AA24_to_AC (fst c) (snd c) in
       let A := fp2div (cA E) (cC E) in
       do (b, tp) <- back_B_loop (S (length tp)) A R tp;; Ok (Some b, tp)
     else Ok (None, tp));;
  let '((A24minus, A24plus), coeff) := get_3_isog O R in
  let Q := omap (eval_3_isog O coeff) Q in
  let back := omap (eval_3_isog O coeff) back in
  Ok (Some (AA24_to_AC A24minus A24plus, Q, back), tp).

(* poik.c:728-753; l = 2 when [l2], otherwise 3 *)
Fixpoint Random_Point_loop (k : nat) (A : T) (l2 : bool) (avoid : option pt) (tp : tape) : out (pt * tape) :=
  match k with
  | 0%nat => Abort
  | S k =>
      do (R, e, Q, tp) <- random_point_with_order e2 e3 A l2 tp;;
      let emax := if l2 then e2 else e3 in
      if (e <? emax)%nat then Random_Point_loop k A l2 avoid tp else
      if match avoid with Some a => point_equal Q a | None => false end
      then Random_Point_loop k A l2 avoid tp else Ok (R, tp)
  end.
Definition Random_Point_AB (E : curve) (l2 : bool) (avoid : option pt) (tp : tape) : out (pt * tape) :=
  Random_Point_loop n9999 (fp2div (cA E) (cC E)) l2 avoid tp.

(** ** The curve check *)
(* poik.c:763-773; unsigned long arithmetic of 64 bits *)
Definition ul (x : Z) : Z := x mod 2 ^ 64.
Definition proves_order (order_2part order_3part : Z) : bool :=
  let LOG2_3_N := 1054%Z in
  let LOG2_3_D := 665%Z in
  let bound := ul (ul (LOG2_3_D * (2 + Z.of_nat e2)) + ul ((LOG2_3_N + 1) * Z.of_nat e3)) in
  let value := ul (ul (LOG2_3_D * order_2part) + ul ((LOG2_3_N + 0) * order_3part)) in
  (bound <? value)%Z.

(** struct torsion_data *)
Record torsion := mkTors { tT : pt; th : nat }.
(* poik.c:795-800 and 815-820: for (h = 0; h < max; ++h) { if (Q.Z = 0) break; T = Q; Q = step Q; } *)
Fixpoint order_loop (step : pt -> pt) (k : nat) (cur : torsion) (Q : pt) : torsion * pt :=
  match k with
  | 0%nat => (cur, Q)
  | S k => if is0 (pZ Q) then (cur, Q) else order_loop step k (mkTors Q (S (th cur))) (step Q)
  end.
(* poik.c:803-805, 823-825 *)
Definition add_order (max cur : torsion) : nat :=
  if negb (point_equal (tT cur) (tT max)) then (th max + th cur)%nat else th max.
(* poik.c:787-837; [junk] is the content of the uninitialised cur2.T, cur3.T *)
Fixpoint check_loop (junk : pt) (k : nat) (E : curve) (max2 max3 : torsion) (tp : tape) : out (bool * tape) :=
  match k with
  | 0%nat => Abort
  | S k =>
      let '(A24plus, A24minus, C24) := AC_to_AAC24 E in
      do (R, tp) <- random_point (cA E) tp;;
      let Q := xTPLe O R A24minus A24plus e3 in
      let '(cur2, Q) := order_loop (fun Q => xDBL O Q A24plus C24) e2 (mkTors junk 0) Q in
      if negb (is0 (pZ Q)) then Ok (false, tp) else
      let ord2 := add_order max2 cur2 in
      if proves_order (Z.of_nat ord2) (Z.of_nat (th max3)) then Ok (true, tp) else
      let Q := xDBLe O R A24plus C24 (th cur2) in
      let '(cur3, Q) := order_loop (fun Q => xTPL O Q A24minus A24plus) e3 (mkTors junk 0) Q in
      if negb (is0 (pZ Q)) then Ok (false, tp) else
      let ord3 := add_order max3 cur3 in
      if proves_order (Z.of_nat ord2) (Z.of_nat ord3) then Ok (true, tp) else
      let max2 := if (th max2 <? th cur2)%nat then cur2 else max2 in
      let max3 := if (th max3 <? th cur3)%nat then cur3 else max3 in
      check_loop junk k E max2 max3 tp
  end.
Definition no_torsion : torsion := mkTors (mkPt zero zero) 0.
(* poik.c:775-840 *)
Definition Check_Curve (junk : pt) (E : curve) (tp : tape) : out (bool * tape) :=
  check_loop junk n9999 E no_torsion no_torsion tp.
End Models.
