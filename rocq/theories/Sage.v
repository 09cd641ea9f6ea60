(** Model of the hashing and of the response handling of sage-impl/verify.sage.  Lists of integers stand for
    Python bytes.  The curve computations (unpack_chain, j_invariant) are parameters: they are evaluated by
    Sage's own library. *)
From Verif Require Import Base Out Params Poik Keccak.

(** verify.sage:27-30: plen = (p.bit_length() + 7) // 8, both coefficients little-endian *)
Definition sage_plen (p : Z) : nat := Z.to_nat ((Z.log2 p + 1 + 7) / 8).
Definition sage_pack (p : Z) (el : Z * Z) : list Z := toB 256 (sage_plen p) (fst el) ++ toB 256 (sage_plen p) (snd el).
(** verify.sage:32-37; the length 32 is fixed *)
Definition sage_hash_hiding (r packed_v : list Z) : list Z := shake256 32 ([2] ++ r ++ packed_v).
(** verify.sage:45-51, what is absorbed: j0, j1 packed, then h2 + h3 for every pair *)
Definition sage_challenge_input (j0 j1 : list Z) (hs : list (list Z * list Z)) : list Z :=
  [1] ++ j0 ++ j1 ++ flat_map (fun h => fst h ++ snd h) hs.
(** verify.sage:58-60: five times divmod 3 *)
Fixpoint sage_divmods (k : nat) (v : Z) : list Z :=
  match k with O => [] | S k => (if v mod 3 =? 2 then -1 else v mod 3) :: sage_divmods k (v / 3) end.
(** verify.sage:53-61, reading [bytes] one at a time; running out of bytes is NoFuel (the XOF is endless) *)
Fixpoint sage_trits (n : nat) (trits bytes : list Z) : out (list Z) :=
  if (length trits <? n)%nat then
    match bytes with
    | [] => NoFuel
    | v :: bytes => if v >=? 243 then sage_trits n trits bytes else sage_trits n (trits ++ sage_divmods 5 v) bytes
    end
  else Ok (firstn n trits).
(** verify.sage:45-61; [fuel] = number of XOF bytes available *)
Definition sage_challenge (fuel : nat) (j0 j1 : list Z) (hs : list (list Z * list Z)) : out (list Z) :=
  sage_trits (length hs) [] (shake256 fuel (sage_challenge_input j0 j1 hs)).

Section Verify.
Context {C : Type}.                                     (** field elements (curves and x-coordinates) *)
Variable jpack : C -> list Z.                           (** pack(curve(A).j_invariant()) *)
Variable chainA chainB : C -> list C -> option (list Z).
  (** pack(unpack_chain(A, chain, 2^a or 3^b).j_invariant()); None: Invalid raised *)
(** verify.sage:127-180: the three response classes *)
Inductive sresp : Type :=
| SLeft (r2 h3 : list Z) (chain : list C)
| SBottom (r2 r3 : list Z) (E2 : C) (chain : list C)
| SRight (h2 r3 : list Z) (chain : list C).
(** verify.sage:201-208: the tag read before the response *)
Definition sage_tag (r : sresp) : Z := match r with SLeft _ _ _ => -1 | SBottom _ _ _ _ => 0 | SRight _ _ _ => 1 end.
(** verify.sage:20-24 (read_bytes: one or more hex pairs, no length check), 134, 152, 171 (chain lengths) *)
Definition sage_readable (w h : nat) (r : sresp) : Prop :=
  match r with
  | SLeft r2 h3 c => r2 <> [] /\ h3 <> [] /\ length c = h
  | SBottom r2 r3 _ c => r2 <> [] /\ r3 <> [] /\ length c = w
  | SRight h2 r3 c => h2 <> [] /\ r3 <> [] /\ length c = h
  end.
(** verify.sage:136-139, 154-159, 173-176 *)
Definition sage_unpack (E0 E1 : C) (r : sresp) : option (list Z * list Z) :=
  match r with
  | SLeft r2 h3 c => match chainB E0 c with Some j2 => Some (sage_hash_hiding r2 j2, h3) | None => None end
  | SBottom r2 r3 E2 c =>
      match chainA E2 c with Some j3 => Some (sage_hash_hiding r2 (jpack E2), sage_hash_hiding r3 j3) | None => None end
  | SRight h2 r3 c => match chainB E1 c with Some j3 => Some (h2, sage_hash_hiding r3 j3) | None => None end
  end.
Fixpoint sage_unpack_all (E0 E1 : C) (rs : list sresp) : option (list (list Z * list Z)) :=
  match rs with
  | [] => Some []
  | r :: rs => match sage_unpack E0 E1 r, sage_unpack_all E0 E1 rs with Some h, Some hs => Some (h :: hs) | _, _ => None end
  end.
(** verify.sage:214-236: accepted iff every response unpacks and the challenge equals the tags *)
Definition sage_verify (fuel : nat) (E0 E1 : C) (tags : list Z) (rs : list sresp) : out bool :=
  match sage_unpack_all E0 E1 rs with
  | None => Ok false
  | Some hs => do c <- sage_challenge fuel (jpack E0) (jpack E1) hs;;
               Ok (if list_eq_dec Z.eq_dec c tags then true else false)
  end.
End Verify.
Arguments sresp C : clear implicits.
