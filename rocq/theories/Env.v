(** Model of S/random/random.c (Linux branch) and of render_progress (S/poik.c:1245-1270). *)
From Verif Require Import Base Out Poik.

(** conversion of unsigned long long to int (gcc: reduction modulo 2^32) *)
Definition to_int (z : Z) : Z := let m := z mod 2 ^ 32 in if m <? 2 ^ 31 then m else m - 2 ^ 32.
(** bytes [d] written at [buf + i], undefined if they do not fit *)
Definition blit (i : nat) (d buf : list Z) : out (list Z) :=
  if (i + length d <=? length buf)%nat then Ok (firstn i buf ++ d ++ skipn (i + length d) buf) else UB.
(** What the device does at each read(): an error, or data (read returns at most the n bytes asked for). *)
Definition device := list (option (list Z)).
(** random.c:43-51.  Running out of device events = the call has not returned yet. *)
Fixpoint rb_loop (dev : device) (n : Z) (count : nat) (buf : list Z) : out (list Z) :=
  if n >? 0 then
    match dev with
    | [] => NoFuel
    | None :: dev => rb_loop dev n count buf
    | Some d :: dev =>
        let r := firstn (Z.to_nat n) d in
        do buf <- blit count r buf;;
        rb_loop dev (n - Z.of_nat (length r)) (count + length r) buf
    end
  else Ok buf.
(** random.c:23-55; the loop that opens /dev/urandom (32-39) is not modelled: the device is open. *)
Definition randombytes (dev : device) (nbytes : Z) (buf : list Z) : out (list Z) := rb_loop dev (to_int nbytes) 0 buf.

(** memset(buf, c, n) *)
Definition memset (c : Z) (n : Z) (buf : list Z) : out (list Z) :=
  if n <=? Z.of_nat (length buf) then Ok (repeat c (Z.to_nat n) ++ skipn (Z.to_nat n) buf) else UB.
(** poik.c:1257, size_t arithmetic of 64 bits, then truncation to unsigned *)
Definition progress_done (K : pok) (idx : Z) : Z := (((63 * idx) mod 2 ^ 64) / Z.of_nat (reps K)) mod 2 ^ 32.
(** poik.c:1245-1270 with the indicator switched on and idx <> -1: new value of [last] and the printed
    buffer ([None]: nothing printed) *)
Definition render_progress (K : pok) (idx last : Z) : out (Z * option (list Z)) :=
  let done := progress_done K idx in
  if done =? last then Ok (last, None)
  else
    let buf := repeat 0 65 in
    do buf <- memset 46 64 buf;;
    do buf <- memset 61 done buf;;
    do buf <- store (Z.to_nat done) 62 buf;;
    Ok (done, Some buf).
