(** Parameters of the proof system (S/poik.h:13-39) on top of the field parameters. *)
From Verif Require Import Base Params.
Record pok := mkPok {
  fpar : params;            (** field *)
  reps : nat;               (** POIK_REPS *)
  width : nat;              (** POIK_WIDTH *)
  height : nat;             (** POIK_HEIGHT *)
  hash_bytes : nat;         (** HASH_BYTES *)
  hide_bytes : nat          (** HIDE_BYTES *)
}.
(** SIDH_BYTES = sizeof(packed_fp2) *)
Definition sidh_bytes (K : pok) : nat := 2 * fp_bytes (fpar K).
Definition K434 t := mkPok (P434 t) 219 4 7 32 64.
Definition K503 t := mkPok (P503 t) 219 4 7 32 64.
Definition K610 t := mkPok (P610 t) 329 4 7 48 96.
Definition K751 t := mkPok (P751 t) 438 4 7 64 128.
