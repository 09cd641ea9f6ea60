(** Model of c-impl/prove.c and c-impl/verify.c over an operation record: return value of main and the text
    written to stdout.  Messages on stderr and the progress indicator are not represented (for the latter see
    Env.v).  A stream write is the call of fprintf/fputc; what happens when the C library flushes its buffer
    after main has returned is outside the model. *)
From Verif Require Import Base Out Params Fp Poik Hashing Codec Ops Ec Models Proto.

Section Cli.
Variable K : pok.
Variable O : fops.
Variable junk : pt O.

(** "--initial" *)
Definition initial_arg : list Z := [45; 45; 105; 110; 105; 116; 105; 97; 108].
(* prove.c:13-18.  [args] are argv[1], argv[2], ...; [None]: return -1 *)
Definition read_start (args : list (list Z)) (stdin : list Z) : out (option (list Z)) :=
  match args with
  | a :: _ => if list_eq_dec Z.eq_dec a initial_arg then Ok (Some (repeat 0 (sidh_bytes K)))
              else do r <- Parse_Fp2 K stdin;; Ok (option_map fst r)
  | [] => do r <- Parse_Fp2 K stdin;; Ok (option_map fst r)
  end.
(* prove.c:7-41; [tp]: random bytes used by Generate, [tps], [tps2]: by the workers of Prove; [olds]: previous
   content of the responses; [o]: outcome of the calls that write to stdout *)
Definition main_prove (args : list (list Z)) (stdin : list Z) (malloc_ok : bool) (o : oracle) (fuel : nat)
  (tp : tape) (olds : nat -> list Z) (tps tps2 : nat -> tape) : out (Z * list Z) :=
  do E0 <- read_start args stdin;;
  match E0 with
  | None => Ok (-1, [])
  | Some E0 =>
      do (sec, _) <- Generate K O junk E0 tp;;
      match sec with
      | None => Ok (1, [])
      | Some sec =>
          if malloc_ok then
            do prf <- Prove K O fuel sec olds tps tps2;;
            do (ok, s) <- Dump K o prf (mkStream [] 0);;
            Ok (if ok : bool then 0 else 3, s_out s)
          else Ok (2, [])
      end
  end.
(* verify.c:6-38; [prf0]: content of the fresh allocation *)
Definition main_verify (prf0 : proof) (stdin : list Z) (malloc_ok : bool) (o : oracle) (fuel : nat)
  (tp : tape) (tps : nat -> tape) : out (Z * list Z) :=
  if malloc_ok then
    do r <- Parse K prf0 stdin;;
    match r with
    | None => Ok (-1, [])
    | Some (prf, _) =>
        do ok <- Verify K O junk fuel prf tp tps;;
        if ok : bool then
          let (ok, s) := Dump_Fp2 K o (p_E0 prf) (mkStream [] 0) in
          if ok then
            let (ok, s) := Dump_Fp2 K o (p_E1 prf) s in
            Ok (if ok then 0 else 3, s_out s)
          else Ok (3, s_out s)
        else Ok (2, [])
    end
  else Ok (1, []).
End Cli.
