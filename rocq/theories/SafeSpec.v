(** Specification: runs without undefined behaviour.  No code of /repo is modelled here. *)
From Verif Require Import Base Out Params Poik Hashing.

(** The run ends with a result, with fail() after too many unsuccessful random choices (Abort), or because the random bytes are used up
    (NoTape); it neither leaves an array or uses the result of a failed call (UB) nor exceeds a bound that only the model has (NoFuel). *)
Definition defined {A} (o : out A) : Prop :=
  match o with Ok _ | Abort | NoTape => True | NoFuel | UB => False end.
(** The same, but the model's bound on the blocks squeezed for a challenge may be exceeded. *)
Definition safe_run {A} (K : pok) (fuel : nat) (o : out A) : Prop :=
  match o with
  | Ok _ | Abort | NoTape => True
  | NoFuel => exists comm, Challenge K fuel comm (repeat 0 (reps K)) = NoFuel
  | UB => False
  end.
(** The two kinds of text for which reading is undefined: a byte 128..254 given to isxdigit as a negative char, and a decimal number
    that does not fit into an int. *)
Definition unreadable (text : list Z) : Prop :=
  Exists (fun c => 128 <= c < 255) text \/
  exists a ds b, text = a ++ ds ++ b /\ forallb (fun c => (48 <=? c) && (c <=? 57)) ds = true /\
    2 ^ 31 <= fold_left (fun n c => 10 * n + (c - 48)) ds 0.
