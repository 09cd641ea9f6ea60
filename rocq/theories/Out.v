(** Outcomes of modelled code: a value, abort(), an exhausted randomness tape (the run needs more
    random bytes than the tape holds), an exhausted iteration budget, undefined behaviour.
    No code of /repo is modelled here. *)
From Verif Require Import Base.
Inductive out (A : Type) : Type :=
| Ok (a : A) | Abort | NoTape | NoFuel | UB.
Arguments Ok {A}. Arguments Abort {A}. Arguments NoTape {A}. Arguments NoFuel {A}. Arguments UB {A}.
Definition bind {A B} (m : out A) (f : A -> out B) : out B :=
  match m with Ok a => f a | Abort => Abort | NoTape => NoTape | NoFuel => NoFuel | UB => UB end.
Notation "'do' p <- m ;; k" := (bind m (fun p => k)) (at level 200, p pattern, m at level 100, k at level 200, right associativity).
(** Array store with bounds check. *)
Definition store {A} (i : nat) (x : A) (l : list A) : out (list A) :=
  if (i <? length l)%nat then Ok (upd i x l) else UB.
