(** Property theorems C35 (worker threads), C46 (random device), C47 (progress indicator). *)
From Verif Require Import Base BaseP Out Poik Params Threads ThreadsP Env EnvP.

(** * C35.  [run i] is what the work on index i returns and stores; [start n] has n workers; a schedule lists
    which worker makes the next step. *)
(** No index is handed out twice, none beyond POIK_REPS - 1. *)
Theorem C35_distinct : forall V (run : nat -> bool * V) REPS n sched s,
  exec run REPS sched (start n) = Some s -> NoDup (trace s) /\ Forall (fun i => (i < REPS)%nat) (trace s).
Proof. exact (@indices_distinct). Qed.
Print Assumptions C35_distinct.

(** Only slots below POIK_REPS are ever written, with the result of their own index. *)
Theorem C35_slots : forall V (run : nat -> bool * V) REPS n sched s i,
  exec run REPS sched (start n) = Some s -> slot s i <> None -> (i < REPS)%nat /\ slot s i = Some (snd (run i)).
Proof. exact (@touched). Qed.
Print Assumptions C35_slots.

(** When all workers have returned, the flag is the one of the sequential loop, and on success so is
    every slot, and every index was handed out. *)
Theorem C35_result : forall V (run : nat -> bool * V) REPS n sched s, (0 < n)%nat ->
  exec run REPS sched (start n) = Some s -> finished s ->
  okay s = fst (sequential run REPS 0 (fun _ => None)) /\
  (okay s = true -> forall i, slot s i = snd (sequential run REPS 0 (fun _ => None)) i).
Proof. exact (@finish). Qed.
Print Assumptions C35_result.

Theorem C35_all_indices : forall V (run : nat -> bool * V) REPS n sched s, (0 < n)%nat ->
  exec run REPS sched (start n) = Some s -> finished s -> okay s = true ->
  forall i, (i < REPS)%nat <-> In i (trace s).
Proof. exact (@handed_once). Qed.
Print Assumptions C35_all_indices.

(** The sequential loop computes the conjunction. *)
Theorem C35_sequential : forall V (run : nat -> bool * V) REPS,
  (fst (sequential run REPS 0 (fun _ => None)) = true <-> forall i, (i < REPS)%nat -> fst (run i) = true) /\
  ((forall i, (i < REPS)%nat -> fst (run i) = true) -> forall i, (i < REPS)%nat ->
     snd (sequential run REPS 0 (fun _ => None)) i = Some (snd (run i))).
Proof. exact (@sequential_meaning). Qed.
Print Assumptions C35_sequential.

(** Every execution ends: no schedule is longer than 4 POIK_REPS + n steps, and as long as some worker has
    not returned, some worker can make a step. *)
Theorem C35_terminates : forall V (run : nat -> bool * V) REPS n sched s, exec run REPS sched (start n) = Some s ->
  (length sched <= 4 * REPS + n)%nat /\
  (finished s \/ exists k s', (k < n)%nat /\ exec run REPS (sched ++ [k]) (start n) = Some s').
Proof. exact (fun V run REPS n sched s H => conj (bounded run REPS n sched s H) (progress run REPS n sched s H)). Qed.
Print Assumptions C35_terminates.

Theorem C35_counter_bounded : forall V (run : nat -> bool * V) REPS n sched s,
  exec run REPS sched (start n) = Some s -> (idx s <= REPS + n)%nat.
Proof. exact (@counter_bounded). Qed.
Print Assumptions C35_counter_bounded.

(** Two workers, three indices, index 1 fails while worker 0 is still busy with index 0; worker 0 then finds no work left. *)
Example C35_example :
  let run := fun i => (negb (i =? 1)%nat, Z.of_nat i * 10) in
  match exec run 3 [0; 1; 1; 1; 1; 0; 0]%nat (start 2) with
  | Some s => idx s = 4%nat /\ okay s = false /\ trace s = [1; 0]%nat /\ workers s = [Done; Done] /\
              slot s 0%nat = Some 0 /\ slot s 1%nat = Some 10 /\ slot s 2%nat = None
  | None => False
  end.
Proof. vm_compute. repeat split. Qed.

(** With no worker at all (num_threads() = 0) the flag stays true whatever the responses: the premise 0 < n is needed. *)
Example C35_zero_threads : exec (fun _ => (false, tt)) 3 [] (start 0) = Some (start 0) /\ @okay unit (start 0) = true /\ @finished unit (start 0).
Proof. repeat split. constructor. Qed.

(** * C46 *)
(** Requests below 2^31 bytes: the buffer receives the first nbytes bytes delivered, in order, whatever
    the pattern of errors and short reads; until that many have been delivered the call does not return. *)
Theorem C46_randombytes : forall dev nbytes buf, 0 <= nbytes < 2 ^ 31 -> length buf = Z.to_nat nbytes ->
  let delivered := flat_map (fun e => match e with Some d => d | None => [] end) dev in
  randombytes dev nbytes buf =
    if (Z.to_nat nbytes <=? length delivered)%nat then Ok (firstn (Z.to_nat nbytes) delivered) else NoFuel.
Proof. exact randombytes_ok. Qed.
Print Assumptions C46_randombytes.

(** Requests from 2^31 to 2^32 - 1 bytes return success with the buffer untouched: false as stated. *)
Theorem C46_large_refuted : forall dev nbytes buf, 2 ^ 31 <= nbytes < 2 ^ 32 -> randombytes dev nbytes buf = Ok buf.
Proof. exact randombytes_large. Qed.
Print Assumptions C46_large_refuted.

(** A device at end of file (read returns 0) keeps the loop running forever. *)
Theorem C46_eof_never_returns : forall k nbytes buf, 0 < nbytes < 2 ^ 31 -> length buf = Z.to_nat nbytes ->
  randombytes (repeat (Some []) k) nbytes buf = NoFuel.
Proof. exact randombytes_eof. Qed.
Print Assumptions C46_eof_never_returns.

Example C46_example : randombytes [None; Some [1; 2]; None; Some []; Some [3]; Some [4; 5; 6]; Some [7]] 5 [0; 0; 0; 0; 0] = Ok [1; 2; 3; 4; 5] /\
  randombytes [None; Some [1; 2]; None; Some []] 5 [0; 0; 0; 0; 0] = NoFuel.
Proof. vm_compute. split; reflexivity. Qed.

(** * C47 *)
(** For every index up to POIK_REPS the buffer holds 64 printable characters and a final NUL. *)
Theorem C47_progress : forall K idx last, (0 < reps K)%nat -> Z.of_nat (reps K) < 2 ^ 50 -> 0 <= idx <= Z.of_nat (reps K) ->
  let k := Z.to_nat (63 * idx / Z.of_nat (reps K)) in
  (k <= 63)%nat /\
  render_progress K idx last = Ok (if 63 * idx / Z.of_nat (reps K) =? last then (last, None)
     else (63 * idx / Z.of_nat (reps K), Some (repeat 61 k ++ [62] ++ repeat 46 (63 - k) ++ [0]))).
Proof. exact render_ok. Qed.
Print Assumptions C47_progress.

(** The last index fills the bar; one beyond 1.02 times POIK_REPS would write outside the buffer. *)
Example C47_example : render_progress (K434 T64) 219 7 = Ok (63, Some (repeat 61 63 ++ [62; 0])) /\
  render_progress (K434 T64) 227 7 = UB.
Proof. vm_compute. split; reflexivity. Qed.
