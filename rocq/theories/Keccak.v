(** Model of S/sha3/fips202.c. *)
From Verif Require Import Base.
Open Scope Z_scope.

(** uint64_t complement (the operator ~ in fips202.c:126 etc.) *)
Definition not64 (a : Z) : Z := 2 ^ 64 - 1 - a.
(** fips202.c:20, macro ROL on uint64_t; left shifts drop bits above 63 *)
Definition rol (a o : Z) : Z := Z.lxor (Z.shiftl a o mod 2 ^ 64) (Z.shiftr a (64 - o)).
(** fips202.c:23-26 load64 and 29-32 store64 (little endian) *)
Definition load64 (x : list Z) : Z := valB 256 (firstn 8 x).
Definition store64 (u : Z) : list Z := toB 256 8 u.
(** fips202.c:35-61 *)
Definition KeccakF_RoundConstants : list Z :=
  [0x0000000000000001;
   0x0000000000008082;
   0x800000000000808a;
   0x8000000080008000;
   0x000000000000808b;
   0x0000000080000001;
   0x8000000080008081;
   0x8000000000008009;
   0x000000000000008a;
   0x0000000000000088;
   0x0000000080008009;
   0x000000008000000a;
   0x000000008000808b;
   0x800000000000008b;
   0x8000000000008089;
   0x8000000000008003;
   0x8000000000008002;
   0x8000000000000080;
   0x000000000000800a;
   0x800000008000000a;
   0x8000000080008081;
   0x8000000000008080;
   0x0000000080000001;
   0x8000000080008008].
(** fips202.c:110-203, first half of the loop body of KeccakF1600_StatePermute (A to E); the
    locals A are dead afterwards.  Generated from the C text, one let per assignment; the variable
    Do is called Do_. *)
Definition round_A_E (rc0 : Z) (state : list Z) : list Z :=
  let Aba := nth 0 state 0 in
  let Abe := nth 1 state 0 in
  let Abi := nth 2 state 0 in
  let Abo := nth 3 state 0 in
  let Abu := nth 4 state 0 in
  let Aga := nth 5 state 0 in
  let Age := nth 6 state 0 in
  let Agi := nth 7 state 0 in
  let Ago := nth 8 state 0 in
  let Agu := nth 9 state 0 in
  let Aka := nth 10 state 0 in
  let Ake := nth 11 state 0 in
  let Aki := nth 12 state 0 in
  let Ako := nth 13 state 0 in
  let Aku := nth 14 state 0 in
  let Ama := nth 15 state 0 in
  let Ame := nth 16 state 0 in
  let Ami := nth 17 state 0 in
  let Amo := nth 18 state 0 in
  let Amu := nth 19 state 0 in
  let Asa := nth 20 state 0 in
  let Ase := nth 21 state 0 in
  let Asi := nth 22 state 0 in
  let Aso := nth 23 state 0 in
  let Asu := nth 24 state 0 in
  let BCa := Z.lxor (Z.lxor (Z.lxor (Z.lxor Aba Aga) Aka) Ama) Asa in
  let BCe := Z.lxor (Z.lxor (Z.lxor (Z.lxor Abe Age) Ake) Ame) Ase in
  let BCi := Z.lxor (Z.lxor (Z.lxor (Z.lxor Abi Agi) Aki) Ami) Asi in
  let BCo := Z.lxor (Z.lxor (Z.lxor (Z.lxor Abo Ago) Ako) Amo) Aso in
  let BCu := Z.lxor (Z.lxor (Z.lxor (Z.lxor Abu Agu) Aku) Amu) Asu in
  let Da := Z.lxor BCu (rol BCe 1) in
  let De := Z.lxor BCa (rol BCi 1) in
  let Di := Z.lxor BCe (rol BCo 1) in
  let Do_ := Z.lxor BCi (rol BCu 1) in
  let Du := Z.lxor BCo (rol BCa 1) in
  let Aba := Z.lxor Aba Da in
  let BCa := Aba in
  let Age := Z.lxor Age De in
  let BCe := rol Age 44 in
  let Aki := Z.lxor Aki Di in
  let BCi := rol Aki 43 in
  let Amo := Z.lxor Amo Do_ in
  let BCo := rol Amo 21 in
  let Asu := Z.lxor Asu Du in
  let BCu := rol Asu 14 in
  let Eba := Z.lxor BCa (Z.land (not64 BCe) BCi) in
  let Eba := Z.lxor Eba rc0 in
  let Ebe := Z.lxor BCe (Z.land (not64 BCi) BCo) in
  let Ebi := Z.lxor BCi (Z.land (not64 BCo) BCu) in
  let Ebo := Z.lxor BCo (Z.land (not64 BCu) BCa) in
  let Ebu := Z.lxor BCu (Z.land (not64 BCa) BCe) in
  let Abo := Z.lxor Abo Do_ in
  let BCa := rol Abo 28 in
  let Agu := Z.lxor Agu Du in
  let BCe := rol Agu 20 in
  let Aka := Z.lxor Aka Da in
  let BCi := rol Aka 3 in
  let Ame := Z.lxor Ame De in
  let BCo := rol Ame 45 in
  let Asi := Z.lxor Asi Di in
  let BCu := rol Asi 61 in
  let Ega := Z.lxor BCa (Z.land (not64 BCe) BCi) in
  let Ege := Z.lxor BCe (Z.land (not64 BCi) BCo) in
  let Egi := Z.lxor BCi (Z.land (not64 BCo) BCu) in
  let Ego := Z.lxor BCo (Z.land (not64 BCu) BCa) in
  let Egu := Z.lxor BCu (Z.land (not64 BCa) BCe) in
  let Abe := Z.lxor Abe De in
  let BCa := rol Abe 1 in
  let Agi := Z.lxor Agi Di in
  let BCe := rol Agi 6 in
  let Ako := Z.lxor Ako Do_ in
  let BCi := rol Ako 25 in
  let Amu := Z.lxor Amu Du in
  let BCo := rol Amu 8 in
  let Asa := Z.lxor Asa Da in
  let BCu := rol Asa 18 in
  let Eka := Z.lxor BCa (Z.land (not64 BCe) BCi) in
  let Eke := Z.lxor BCe (Z.land (not64 BCi) BCo) in
  let Eki := Z.lxor BCi (Z.land (not64 BCo) BCu) in
  let Eko := Z.lxor BCo (Z.land (not64 BCu) BCa) in
  let Eku := Z.lxor BCu (Z.land (not64 BCa) BCe) in
  let Abu := Z.lxor Abu Du in
  let BCa := rol Abu 27 in
  let Aga := Z.lxor Aga Da in
  let BCe := rol Aga 36 in
  let Ake := Z.lxor Ake De in
  let BCi := rol Ake 10 in
  let Ami := Z.lxor Ami Di in
  let BCo := rol Ami 15 in
  let Aso := Z.lxor Aso Do_ in
  let BCu := rol Aso 56 in
  let Ema := Z.lxor BCa (Z.land (not64 BCe) BCi) in
  let Eme := Z.lxor BCe (Z.land (not64 BCi) BCo) in
  let Emi := Z.lxor BCi (Z.land (not64 BCo) BCu) in
  let Emo := Z.lxor BCo (Z.land (not64 BCu) BCa) in
  let Emu := Z.lxor BCu (Z.land (not64 BCa) BCe) in
  let Abi := Z.lxor Abi Di in
  let BCa := rol Abi 62 in
  let Ago := Z.lxor Ago Do_ in
  let BCe := rol Ago 55 in
  let Aku := Z.lxor Aku Du in
  let BCi := rol Aku 39 in
  let Ama := Z.lxor Ama Da in
  let BCo := rol Ama 41 in
  let Ase := Z.lxor Ase De in
  let BCu := rol Ase 2 in
  let Esa := Z.lxor BCa (Z.land (not64 BCe) BCi) in
  let Ese := Z.lxor BCe (Z.land (not64 BCi) BCo) in
  let Esi := Z.lxor BCi (Z.land (not64 BCo) BCu) in
  let Eso := Z.lxor BCo (Z.land (not64 BCu) BCa) in
  let Esu := Z.lxor BCu (Z.land (not64 BCa) BCe) in
  [Eba; Ebe; Ebi; Ebo; Ebu; Ega; Ege; Egi; Ego; Egu; Eka; Eke; Eki; Eko; Eku; Ema; Eme; Emi; Emo; Emu; Esa; Ese; Esi; Eso; Esu].
(** fips202.c:205-298, second half of the loop body (E to A). *)
Definition round_E_A (rc1 : Z) (state : list Z) : list Z :=
  let Eba := nth 0 state 0 in
  let Ebe := nth 1 state 0 in
  let Ebi := nth 2 state 0 in
  let Ebo := nth 3 state 0 in
  let Ebu := nth 4 state 0 in
  let Ega := nth 5 state 0 in
  let Ege := nth 6 state 0 in
  let Egi := nth 7 state 0 in
  let Ego := nth 8 state 0 in
  let Egu := nth 9 state 0 in
  let Eka := nth 10 state 0 in
  let Eke := nth 11 state 0 in
  let Eki := nth 12 state 0 in
  let Eko := nth 13 state 0 in
  let Eku := nth 14 state 0 in
  let Ema := nth 15 state 0 in
  let Eme := nth 16 state 0 in
  let Emi := nth 17 state 0 in
  let Emo := nth 18 state 0 in
  let Emu := nth 19 state 0 in
  let Esa := nth 20 state 0 in
  let Ese := nth 21 state 0 in
  let Esi := nth 22 state 0 in
  let Eso := nth 23 state 0 in
  let Esu := nth 24 state 0 in
  let BCa := Z.lxor (Z.lxor (Z.lxor (Z.lxor Eba Ega) Eka) Ema) Esa in
  let BCe := Z.lxor (Z.lxor (Z.lxor (Z.lxor Ebe Ege) Eke) Eme) Ese in
  let BCi := Z.lxor (Z.lxor (Z.lxor (Z.lxor Ebi Egi) Eki) Emi) Esi in
  let BCo := Z.lxor (Z.lxor (Z.lxor (Z.lxor Ebo Ego) Eko) Emo) Eso in
  let BCu := Z.lxor (Z.lxor (Z.lxor (Z.lxor Ebu Egu) Eku) Emu) Esu in
  let Da := Z.lxor BCu (rol BCe 1) in
  let De := Z.lxor BCa (rol BCi 1) in
  let Di := Z.lxor BCe (rol BCo 1) in
  let Do_ := Z.lxor BCi (rol BCu 1) in
  let Du := Z.lxor BCo (rol BCa 1) in
  let Eba := Z.lxor Eba Da in
  let BCa := Eba in
  let Ege := Z.lxor Ege De in
  let BCe := rol Ege 44 in
  let Eki := Z.lxor Eki Di in
  let BCi := rol Eki 43 in
  let Emo := Z.lxor Emo Do_ in
  let BCo := rol Emo 21 in
  let Esu := Z.lxor Esu Du in
  let BCu := rol Esu 14 in
  let Aba := Z.lxor BCa (Z.land (not64 BCe) BCi) in
  let Aba := Z.lxor Aba rc1 in
  let Abe := Z.lxor BCe (Z.land (not64 BCi) BCo) in
  let Abi := Z.lxor BCi (Z.land (not64 BCo) BCu) in
  let Abo := Z.lxor BCo (Z.land (not64 BCu) BCa) in
  let Abu := Z.lxor BCu (Z.land (not64 BCa) BCe) in
  let Ebo := Z.lxor Ebo Do_ in
  let BCa := rol Ebo 28 in
  let Egu := Z.lxor Egu Du in
  let BCe := rol Egu 20 in
  let Eka := Z.lxor Eka Da in
  let BCi := rol Eka 3 in
  let Eme := Z.lxor Eme De in
  let BCo := rol Eme 45 in
  let Esi := Z.lxor Esi Di in
  let BCu := rol Esi 61 in
  let Aga := Z.lxor BCa (Z.land (not64 BCe) BCi) in
  let Age := Z.lxor BCe (Z.land (not64 BCi) BCo) in
  let Agi := Z.lxor BCi (Z.land (not64 BCo) BCu) in
  let Ago := Z.lxor BCo (Z.land (not64 BCu) BCa) in
  let Agu := Z.lxor BCu (Z.land (not64 BCa) BCe) in
  let Ebe := Z.lxor Ebe De in
  let BCa := rol Ebe 1 in
  let Egi := Z.lxor Egi Di in
  let BCe := rol Egi 6 in
  let Eko := Z.lxor Eko Do_ in
  let BCi := rol Eko 25 in
  let Emu := Z.lxor Emu Du in
  let BCo := rol Emu 8 in
  let Esa := Z.lxor Esa Da in
  let BCu := rol Esa 18 in
  let Aka := Z.lxor BCa (Z.land (not64 BCe) BCi) in
  let Ake := Z.lxor BCe (Z.land (not64 BCi) BCo) in
  let Aki := Z.lxor BCi (Z.land (not64 BCo) BCu) in
  let Ako := Z.lxor BCo (Z.land (not64 BCu) BCa) in
  let Aku := Z.lxor BCu (Z.land (not64 BCa) BCe) in
  let Ebu := Z.lxor Ebu Du in
  let BCa := rol Ebu 27 in
  let Ega := Z.lxor Ega Da in
  let BCe := rol Ega 36 in
  let Eke := Z.lxor Eke De in
  let BCi := rol Eke 10 in
  let Emi := Z.lxor Emi Di in
  let BCo := rol Emi 15 in
  let Eso := Z.lxor Eso Do_ in
  let BCu := rol Eso 56 in
  let Ama := Z.lxor BCa (Z.land (not64 BCe) BCi) in
  let Ame := Z.lxor BCe (Z.land (not64 BCi) BCo) in
  let Ami := Z.lxor BCi (Z.land (not64 BCo) BCu) in
  let Amo := Z.lxor BCo (Z.land (not64 BCu) BCa) in
  let Amu := Z.lxor BCu (Z.land (not64 BCa) BCe) in
  let Ebi := Z.lxor Ebi Di in
  let BCa := rol Ebi 62 in
  let Ego := Z.lxor Ego Do_ in
  let BCe := rol Ego 55 in
  let Eku := Z.lxor Eku Du in
  let BCi := rol Eku 39 in
  let Ema := Z.lxor Ema Da in
  let BCo := rol Ema 41 in
  let Ese := Z.lxor Ese De in
  let BCu := rol Ese 2 in
  let Asa := Z.lxor BCa (Z.land (not64 BCe) BCi) in
  let Ase := Z.lxor BCe (Z.land (not64 BCi) BCo) in
  let Asi := Z.lxor BCi (Z.land (not64 BCo) BCu) in
  let Aso := Z.lxor BCo (Z.land (not64 BCu) BCa) in
  let Asu := Z.lxor BCu (Z.land (not64 BCa) BCe) in
  [Aba; Abe; Abi; Abo; Abu; Aga; Age; Agi; Ago; Agu; Aka; Ake; Aki; Ako; Aku; Ama; Ame; Ami; Amo; Amu; Asa; Ase; Asi; Aso; Asu].
Definition permute_body (rc0 rc1 : Z) (state : list Z) : list Z :=
  round_E_A rc1 (round_A_E rc0 state).
(** fips202.c:64-325; the state is copied to locals before and back after the loop *)
Definition KeccakF1600_StatePermute (state : list Z) : list Z :=
  fold_left (fun s round => permute_body (nth round KeccakF_RoundConstants 0) (nth (round + 1) KeccakF_RoundConstants 0) s)
            (map (Nat.mul 2) (seq 0 12)) state.

(** fips202.c:342-343 and 356-357: s[i] ^= load64(m + 8 i) for i < r/8 *)
Definition xor_block (r : nat) (s : list Z) (m : list Z) : list Z :=
  fold_left (fun s i => upd i (Z.lxor (nth i s 0) (load64 (skipn (8 * i) m))) s) (seq 0 (r / 8)) s.
(** fips202.c:335-358 keccak_absorb; the loop runs mlen / r times, t is the padded last block *)
Fixpoint absorb_loop (fuel : nat) (r : nat) (s m : list Z) : list Z * list Z :=
  match fuel with
  | O => (s, m)
  | S fuel' => if (length m <? r)%nat then (s, m)
               else absorb_loop fuel' r (KeccakF1600_StatePermute (xor_block r s m)) (skipn r m)
  end.
Definition last_block (r : nat) (m : list Z) (p : Z) : list Z :=
  let t := m ++ repeat 0 (r - length m) in
  let t := upd (length m) p t in
  upd (r - 1) (Z.lor (nth (r - 1) t 0) 128) t.
Definition keccak_absorb (s : list Z) (r : nat) (m : list Z) (p : Z) : list Z :=
  let (s, m) := absorb_loop (length m) r s m in
  xor_block r s (last_block r m p).
(** fips202.c:361-375 keccak_squeezeblocks: the written bytes and the new state *)
Fixpoint keccak_squeezeblocks (nblocks : nat) (s : list Z) (r : nat) : list Z * list Z :=
  match nblocks with
  | O => ([], s)
  | S nb => let s := KeccakF1600_StatePermute s in
            let h := flat_map store64 (firstn (r / 8) s) in
            let (h', s) := keccak_squeezeblocks nb s r in
            (h ++ h', s)
  end.
(** fips202.h:8 *)
Definition SHAKE256_RATE : nat := 136.
(** fips202.c:419-422, 425-428 *)
Definition shake256_absorb (s input : list Z) : list Z := keccak_absorb s SHAKE256_RATE input 0x1F.
Definition shake256_squeezeblocks (nblocks : nat) (s : list Z) : list Z * list Z :=
  keccak_squeezeblocks nblocks s SHAKE256_RATE.
(** fips202.c:431-455 *)
Definition shake256 (outlen : nat) (input : list Z) : list Z :=
  let s := repeat 0 25 in
  let nblocks := (outlen / SHAKE256_RATE)%nat in
  let s := keccak_absorb s SHAKE256_RATE input 0x1F in
  let (output, s) := keccak_squeezeblocks nblocks s SHAKE256_RATE in
  let outlen := (outlen - nblocks * SHAKE256_RATE)%nat in
  if (outlen =? 0)%nat then output
  else let (t, _) := keccak_squeezeblocks 1 s SHAKE256_RATE in output ++ firstn outlen t.
