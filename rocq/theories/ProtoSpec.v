(** Specification for the protocol layer: proofs with the same contents.  No code of /repo is modelled here. *)
From Verif Require Import Base Params Fp Wf Poik Codec.

(** The field element a + b i packed in 2 * fp_bytes bytes, as the residues of a and b modulo p. *)
Definition packed_value (P : params) (b : list Z) : Z * Z :=
  (valB 256 (firstn (fp_bytes P) b) mod par_p P, valB 256 (firstn (fp_bytes P) (skipn (fp_bytes P) b)) mod par_p P).
Definition same_value (P : params) (a b : list Z) : Prop := packed_value P a = packed_value P b.
(** conversion of an int to signed char *)
Definition int8 (t : Z) : Z := if t mod 256 <? 128 then t mod 256 else t mod 256 - 256.

(** Two responses with the same contents: tags equal modulo 256; nonces and hashes equal; field elements
    equal modulo p. *)
Definition equiv_response (K : pok) (r s : response) : Prop :=
  r_tag r mod 256 = r_tag s mod 256 /\
  match int8 (r_tag r) with
  | -1 => left_r2 K r = left_r2 K s /\ left_h3 K r = left_h3 K s /\
          forall i, (i < height K)%nat -> same_value (fpar K) (left_x K r i) (left_x K s i)
  | 0 => bottom_r2 K r = bottom_r2 K s /\ bottom_r3 K r = bottom_r3 K s /\
         same_value (fpar K) (bottom_E2 K r) (bottom_E2 K s) /\
         forall i, (i < width K)%nat -> same_value (fpar K) (bottom_x K r i) (bottom_x K s i)
  | 1 => right_h2 K r = right_h2 K s /\ right_r3 K r = right_r3 K s /\
         forall i, (i < height K)%nat -> same_value (fpar K) (right_x K r i) (right_x K s i)
  | _ => True
  end.
Definition equiv_proof (K : pok) (p q : proof) : Prop :=
  same_value (fpar K) (p_E0 p) (p_E0 q) /\ same_value (fpar K) (p_E1 p) (p_E1 q) /\
  Forall2 (equiv_response K) (p_resp p) (p_resp q).
