(** Model of init_basis of S/sidh.c: the generators that the tables A_gen and B_gen of S/P*/P*.c stand for. *)
From Verif Require Import Base Digits Out Params Fp Ops WordOps Sidh.

(* sidh.c:14-24 init_basis: six field elements of NWORDS_FIELD digits, real and imaginary parts of x(P), x(Q), x(P-Q) *)
Definition tab_felm (P : params) (gen : list Z) (i : nat) : felm := firstn (nwords P) (skipn (i * nwords P) gen).
Definition init_basis (P : params) (gen : list Z) : gens (word_ops P) :=
  @mkGens (word_ops P) (tab_felm P gen 0, tab_felm P gen 1) (tab_felm P gen 2, tab_felm P gen 3) (tab_felm P gen 4, tab_felm P gen 5).
(* sidh.c:60-61, 143-144 *)
Definition genA (P : params) : gens (word_ops P) := init_basis P (w_Agen P).
Definition genB (P : params) : gens (word_ops P) := init_basis P (w_Bgen P).
