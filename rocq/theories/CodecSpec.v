(** Specification of the text format. *)
From Verif Require Import Base Params Poik Codec.

(** sizeof of the active member; size of the union *)
Definition active_size (K : pok) (tag : Z) : nat :=
  if tag =? 0 then hide_bytes K + hide_bytes K + sidh_bytes K + width K * sidh_bytes K
  else hide_bytes K + hash_bytes K + height K * sidh_bytes K.
Definition union_size (K : pok) : nat := Nat.max (active_size K 0) (active_size K 1).
Definition legal_tag (t : Z) : Prop := t = -1 \/ t = 0 \/ t = 1.
(** an object of type struct response / struct proof with arbitrary byte content *)
Definition wf_response (K : pok) (r : response) : Prop := length (r_mem r) = union_size K /\ digits 256 (r_mem r).
Definition wf_proof (K : pok) (p : proof) : Prop :=
  (length (p_E0 p) = sidh_bytes K /\ digits 256 (p_E0 p)) /\
  (length (p_E1 p) = sidh_bytes K /\ digits 256 (p_E1 p)) /\
  length (p_resp p) = reps K /\ Forall (wf_response K) (p_resp p).
Definition legal_tags (p : proof) : Prop := Forall (fun r => legal_tag (r_tag r)) (p_resp p).

(** Two responses with the same meaning: same tag and the same contents of every field of the member
    selected by the tag. *)
Definition same_response (K : pok) (r s : response) : Prop :=
  r_tag r = r_tag s /\
  match r_tag r with
  | -1 => left_r2 K r = left_r2 K s /\ left_h3 K r = left_h3 K s /\
          forall i, (i < height K)%nat -> left_x K r i = left_x K s i
  | 0 => bottom_r2 K r = bottom_r2 K s /\ bottom_r3 K r = bottom_r3 K s /\ bottom_E2 K r = bottom_E2 K s /\
         forall i, (i < width K)%nat -> bottom_x K r i = bottom_x K s i
  | 1 => right_h2 K r = right_h2 K s /\ right_r3 K r = right_r3 K s /\
         forall i, (i < height K)%nat -> right_x K r i = right_x K s i
  | _ => False
  end.
Definition same_proof (K : pok) (p q : proof) : Prop :=
  p_E0 p = p_E0 q /\ p_E1 p = p_E1 q /\ Forall2 (same_response K) (p_resp p) (p_resp q).

(** The text of a proof. *)
Definition hex_text (l : list Z) : list Z := flat_map hex2 l.
Definition fp_text (l : list Z) : list Z := [48; 120] ++ hex_text (rev l).              (* 0x, big endian *)
Definition fp2_text (K : pok) (v : list Z) : list Z :=
  fp_text (fp2_real K v) ++ [44] ++ fp_text (fp2_imag K v) ++ [10].                     (* , and newline *)
Definition tag_text (t : Z) : list Z := if t =? -1 then [45; 49] else [48 + t].         (* -1, 0, 1 *)
Definition response_text (K : pok) (r : response) : list Z :=
  tag_text (r_tag r) ++ [10] ++
  if r_tag r =? -1 then
    hex_text (left_r2 K r) ++ [10] ++ hex_text (left_h3 K r) ++ [10] ++
    flat_map (fun i => fp2_text K (left_x K r i)) (seq 0 (height K))
  else if r_tag r =? 0 then
    hex_text (bottom_r2 K r) ++ [10] ++ hex_text (bottom_r3 K r) ++ [10] ++ fp2_text K (bottom_E2 K r) ++
    flat_map (fun i => fp2_text K (bottom_x K r i)) (seq 0 (width K))
  else
    hex_text (right_h2 K r) ++ [10] ++ hex_text (right_r3 K r) ++ [10] ++
    flat_map (fun i => fp2_text K (right_x K r i)) (seq 0 (height K)).
Definition proof_text (K : pok) (p : proof) : list Z :=
  fp2_text K (p_E0 p) ++ fp2_text K (p_E1 p) ++ flat_map (response_text K) (p_resp p).

(** The accepted language: a sequence of tokens, each preceded by optional white space. *)
Inductive token := Thex (txt : list Z) | Tint (z : Z).
Definition fp2_tokens (K : pok) (v : list Z) : list token :=
  [Thex (fp_text (fp2_real K v)); Thex [44]; Thex (fp_text (fp2_imag K v))].
Definition response_tokens (K : pok) (r : response) : list token :=
  Tint (r_tag r) ::
  if r_tag r =? -1 then
    Thex (hex_text (left_r2 K r)) :: Thex (hex_text (left_h3 K r)) ::
    flat_map (fun i => fp2_tokens K (left_x K r i)) (seq 0 (height K))
  else if r_tag r =? 0 then
    Thex (hex_text (bottom_r2 K r)) :: Thex (hex_text (bottom_r3 K r)) :: fp2_tokens K (bottom_E2 K r) ++
    flat_map (fun i => fp2_tokens K (bottom_x K r i)) (seq 0 (width K))
  else
    Thex (hex_text (right_h2 K r)) :: Thex (hex_text (right_r3 K r)) ::
    flat_map (fun i => fp2_tokens K (right_x K r i)) (seq 0 (height K)).
Definition proof_tokens (K : pok) (p : proof) : list token :=
  fp2_tokens K (p_E0 p) ++ fp2_tokens K (p_E1 p) ++ flat_map (response_tokens K) (p_resp p).

(** lower-casing of the hexadecimal letters A-F *)
Definition lower (c : Z) : Z := if (65 <=? c) && (c <=? 70) then c + 32 else c.
(** decimal value of a digit string, most significant first *)
Definition decimal (l : list Z) : Z := fold_left (fun a c => 10 * a + (c - 48)) l 0.
Definition spells (t : token) (w : list Z) : Prop :=
  match t with
  | Thex txt => map lower w = txt
  | Tint z => exists sign ds, w = sign ++ ds /\ ds <> [] /\ forallb isdigit ds = true /\
      ((sign = [45] /\ z = - decimal ds) \/ ((sign = [] \/ sign = [43]) /\ z = decimal ds))
  end.
(** [layout ts w rest]: the text w, followed by rest, spells the tokens ts. *)
Fixpoint layout (ts : list token) (w rest : list Z) : Prop :=
  match ts with
  | [] => w = []
  | t :: ts => exists ws u w', w = ws ++ u ++ w' /\ forallb isspace ws = true /\ spells t u /\
      layout ts w' rest /\
      match t with   (* a decimal number is followed by something else *)
      | Tint _ => match w' ++ rest with c :: _ => isdigit c = false | [] => True end
      | Thex _ => True
      end
  end.
