(** Model of the worker threads of S/poik.c:1289-1383.  Interleaving semantics: one step of one worker is
    one atomic operation on the shared state, or the whole work on one index (which touches no shared state
    but the slots of that index).  Atomic operations are sequentially consistent (C11 atomic_* defaults);
    creation and joining of the threads order everything before and after.  The index counter does not wrap:
    C35_counter_bounded bounds it by POIK_REPS plus the number of threads. *)
From Verif Require Import Base.

Section Workers.
Context {V : Type}.
(** what the work on index i returns and stores in the slots of index i: Unpack_Response (poik.c:1376); for
    Worker_Instance and Worker_Pack_Response the flag is always true.  The randomness used for index i is
    part of [run i]. *)
Variable run : nat -> bool * V.
Variable REPS : nat.

Inductive pc : Type :=
| Fetch                     (** before atomic_fetch_add (poik.c:1372) *)
| Work (i : nat)            (** before the work on index i (1376) *)
| StoreOkay                 (** before atomic_store(okay, false) (1378) *)
| StoreIdx                  (** before atomic_store(idx, POIK_REPS) (1379) *)
| Done.                     (** returned *)
Record state := mkState { idx : nat; okay : bool; slot : nat -> option V; workers : list pc;
  trace : list nat (** ghost: indices handed out, most recent first *) }.

Definition set_slot (s : nat -> option V) (i : nat) (v : V) : nat -> option V :=
  fun j => if (j =? i)%nat then Some v else s j.

(** one step of worker number k *)
Definition step_worker (k : nat) (s : state) : option state :=
  match nth_error (workers s) k with
  | Some Fetch =>
      let i := idx s in
      if (REPS <=? i)%nat then Some (mkState (S i) (okay s) (slot s) (upd k Done (workers s)) (trace s))
      else Some (mkState (S i) (okay s) (slot s) (upd k (Work i) (workers s)) (i :: trace s))
  | Some (Work i) =>
      let (ok, v) := run i in
      Some (mkState (idx s) (okay s) (set_slot (slot s) i v) (upd k (if ok then Fetch else StoreOkay) (workers s)) (trace s))
  | Some StoreOkay => Some (mkState (idx s) false (slot s) (upd k StoreIdx (workers s)) (trace s))
  | Some StoreIdx => Some (mkState REPS (okay s) (slot s) (upd k Done (workers s)) (trace s))
  | Some Done | None => None
  end.
(** poik.c:1478-1481 and 1319-1321: state before the workers run *)
Definition start (n : nat) : state := mkState 0 true (fun _ => None) (repeat Fetch n) [].
(** A schedule is a list of worker numbers. *)
Fixpoint exec (sched : list nat) (s : state) : option state :=
  match sched with
  | [] => Some s
  | k :: sched => match step_worker k s with None => None | Some s' => exec sched s' end
  end.
(** all threads joined (poik.c:1333-1335) *)
Definition finished (s : state) : Prop := Forall (fun p => p = Done) (workers s).

(** The sequential code (poik.c:1487-1490): stop at the first failure. *)
Fixpoint sequential (n : nat) (i : nat) (slots : nat -> option V) : bool * (nat -> option V) :=
  match n with
  | O => (true, slots)
  | S n => let (ok, v) := run i in
           let slots := set_slot slots i v in
           if ok then sequential n (S i) slots else (false, slots)
  end.
End Workers.
