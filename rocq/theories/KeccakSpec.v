(** Specification of Keccak-f[1600] and SHAKE256, written from FIPS 202 (sections 3 to 6 and
    appendix B.1) on bit strings, independently of the C code. *)
From Coq Require Import List Bool Arith.
Import ListNotations.

(** 3.1.2: A[x,y,z] = S[64 (5 y + x) + z] *)
Definition sget (S : list bool) (x y z : nat) : bool := nth (64 * (5 * y + x) + z) S false.
(** 3.1.3 *)
Definition of_fun (A : nat -> nat -> nat -> bool) : list bool :=
  flat_map (fun y => flat_map (fun x => map (A x y) (seq 0 64)) (seq 0 5)) (seq 0 5).

(** index z - k modulo 64 *)
Definition zback (k z : nat) : nat := (z + (64 - k mod 64)) mod 64.

Definition arr := nat -> nat -> nat -> bool.
(** 3.2.1 *)
Definition thetaC (A : arr) (x z : nat) : bool :=
  xorb (xorb (xorb (xorb (A x 0 z) (A x 1 z)) (A x 2 z)) (A x 3 z)) (A x 4 z).
Definition thetaD (A : arr) (x z : nat) : bool :=
  xorb (thetaC A ((x + 4) mod 5) z) (thetaC A ((x + 1) mod 5) (zback 1 z)).
Definition theta (A : arr) : arr := fun x y z => xorb (A x y z) (thetaD A x z).
(** 3.2.2: the walk (x,y) := (y, 2x+3y) from (1,0), offset (t+1)(t+2)/2 at step t *)
Fixpoint rho_table (n t x y : nat) : list ((nat * nat) * nat) :=
  match n with
  | O => []
  | S n' => ((x, y), ((t + 1) * (t + 2) / 2)) :: rho_table n' (t + 1) y ((2 * x + 3 * y) mod 5)
  end.
Definition rho_offset (x y : nat) : nat :=
  match find (fun e => (fst (fst e) =? x) && (snd (fst e) =? y)) (rho_table 24 0 1 0) with
  | Some e => snd e
  | None => 0
  end.
Definition rho (A : arr) : arr := fun x y z => A x y (zback (rho_offset x y) z).
(** 3.2.3 *)
Definition pi (A : arr) : arr := fun x y z => A ((x + 3 * y) mod 5) x z.
(** 3.2.4 *)
Definition chi (A : arr) : arr := fun x y z =>
  xorb (A x y z) (xorb (A ((x + 1) mod 5) y z) true && A ((x + 2) mod 5) y z).
(** 3.2.5, Algorithm 5 *)
Definition lfsr_step (R : list bool) : list bool :=
  let R := false :: R in
  let r8 := nth 8 R false in
  firstn 8 (map (fun i => if (i =? 0) || (i =? 4) || (i =? 5) || (i =? 6) then xorb (nth i R false) r8 else nth i R false)
                (seq 0 9)).
Definition rc (t : nat) : bool :=
  nth 0 (Nat.iter (t mod 255) lfsr_step [true; false; false; false; false; false; false; false]) false.
(** Algorithm 6: RC[2^j - 1] = rc(j + 7 ir) for j = 0..6, other bits 0 *)
Definition RC (ir z : nat) : bool :=
  existsb (fun j => if z =? 2 ^ j - 1 then rc (j + 7 * ir) else false) (seq 0 7).
Definition iota (ir : nat) (A : arr) : arr := fun x y z =>
  if (x =? 0) && (y =? 0) then xorb (A x y z) (RC ir z) else A x y z.
(** 3.3 *)
Definition Rnd (S : list bool) (ir : nat) : list bool :=
  of_fun (iota ir (chi (pi (rho (theta (sget S)))))).
Definition keccak_f1600 (S : list bool) : list bool := fold_left Rnd (seq 0 24) S.

(** ** Section 4: sponge; section 5: padding *)
Fixpoint xorbits (a b : list bool) : list bool :=
  match a, b with
  | x :: a', y :: b' => xorb x y :: xorbits a' b'
  | _, _ => []
  end.
(** Algorithm 9: pad10*1(r, m), j = (-m-2) mod r *)
Definition pad10star1 (r m : nat) : list bool :=
  true :: repeat false ((2 * r - 2 - m mod r) mod r) ++ [true].
(** Split into n blocks of r bits. *)
Fixpoint blocks (r n : nat) (P : list bool) : list (list bool) :=
  match n with
  | O => []
  | S n' => firstn r P :: blocks r n' (skipn r P)
  end.
Section Sponge.
Variable f : list bool -> list bool.
Variable r : nat.
(** Algorithm 8, steps 1 to 6, with width 1600 *)
Definition absorb_bits (N : list bool) : list bool :=
  let P := N ++ pad10star1 r (length N) in
  fold_left (fun S Pi => f (xorbits S (Pi ++ repeat false (1600 - r)))) (blocks r (length P / r) P) (repeat false 1600).
(** steps 7 to 10: the infinite output stream, n blocks of it *)
Fixpoint squeeze_bits (n : nat) (S : list bool) : list bool :=
  match n with
  | O => []
  | S n' => firstn r S ++ squeeze_bits n' (f S)
  end.
Definition sponge (N : list bool) (d : nat) : list bool :=
  firstn d (squeeze_bits (d / r + 1) (absorb_bits N)).
End Sponge.
(** 6.2: SHAKE256(M, d) = KECCAK[512](M || 1111, d), rate 1600 - 512 *)
Definition SHAKE256 (M : list bool) (d : nat) : list bool :=
  sponge keccak_f1600 (1600 - 512) (M ++ [true; true; true; true]) d.

(** B.1: bytes to bits, least significant bit first *)
From Coq Require Import ZArith.
Definition bits_of_byte (b : Z) : list bool := map (fun i => Z.testbit b (Z.of_nat i)) (seq 0 8).
Definition bits_of_bytes (l : list Z) : list bool := flat_map bits_of_byte l.
