(** Common imports and small helpers shared by all files (no code of /repo is modelled here). *)
From Coq Require Export ZArith List Bool Lia Arith.
From Coq Require Export ZifyBool ZifyNat ZifyN.
Export ListNotations.
Global Open Scope Z_scope.

(** Little-endian value of a digit list in base [B]. *)
Fixpoint valB (B : Z) (l : list Z) : Z :=
  match l with
  | [] => 0
  | d :: r => d + B * valB B r
  end.

(** [l] with position [i] replaced by [x] (unchanged if [i] is out of range). *)
Fixpoint upd {A} (i : nat) (x : A) (l : list A) : list A :=
  match l, i with
  | [], _ => []
  | _ :: r, O => x :: r
  | y :: r, S j => y :: upd j x r
  end.

(** All digits of [l] are in [0,B). *)
Definition digits (B : Z) (l : list Z) : Prop := Forall (fun d => 0 <= d < B) l.

(** The [n] lowest base-[B] digits of [x]. *)
Fixpoint toB (B : Z) (n : nat) (x : Z) : list Z :=
  match n with
  | O => []
  | S m => x mod B :: toB B m (x / B)
  end.
