(** Model of the text format of proofs and curves: Dump*, Parse* (S/poik.c:1502-1673).
    Characters are bytes 0..255.  Input streams are finite byte lists followed by end of file (a read
    error behaves like end of file).  Stores made by a Parse function that fails are not recorded: the
    callers (c-impl/prove.c, c-impl/verify.c) discard the object then. *)
From Verif Require Import Base Out Params Poik.

(** ** Data (poik.h:47-95) *)
(** packed_fp2 is its SIDH_BYTES bytes; real and imag are the two halves (poik.h:47-54). *)
Definition fp2_real (K : pok) (v : list Z) : list Z := firstn (fp_bytes (fpar K)) v.
Definition fp2_imag (K : pok) (v : list Z) : list Z := skipn (fp_bytes (fpar K)) v.

(** struct response: the tag (an enum with a negative constant, hence int) and the bytes of the
    anonymous union; all members are unsigned char arrays, so there is no padding inside. *)
Record response := mkResp { r_tag : Z; r_mem : list Z }.
(** struct proof (poik.h:69-95) *)
Record proof := mkProof { p_E0 : list Z; p_E1 : list Z; p_resp : list response }.

Definition RESP_LEFT : Z := -1.
Definition RESP_BOTTOM : Z := 0.
Definition RESP_RIGHT : Z := 1.

Definition slice (o n : nat) (l : list Z) : list Z := firstn n (skipn o l).
(** poik.h:78-92, members of the union by offset *)
Definition left_r2 K r := slice 0 (hide_bytes K) (r_mem r).
Definition left_h3 K r := slice (hide_bytes K) (hash_bytes K) (r_mem r).
Definition left_x K r i := slice (hide_bytes K + hash_bytes K + i * sidh_bytes K) (sidh_bytes K) (r_mem r).
Definition bottom_r2 K r := slice 0 (hide_bytes K) (r_mem r).
Definition bottom_r3 K r := slice (hide_bytes K) (hide_bytes K) (r_mem r).
Definition bottom_E2 K r := slice (hide_bytes K + hide_bytes K) (sidh_bytes K) (r_mem r).
Definition bottom_x K r i :=
  slice (hide_bytes K + hide_bytes K + sidh_bytes K + i * sidh_bytes K) (sidh_bytes K) (r_mem r).
Definition right_h2 K r := slice 0 (hash_bytes K) (r_mem r).
Definition right_r3 K r := slice (hash_bytes K) (hide_bytes K) (r_mem r).
Definition right_x K r i := slice (hash_bytes K + hide_bytes K + i * sidh_bytes K) (sidh_bytes K) (r_mem r).

(** ** Output *)
(** An output stream: what was written and how many calls were made.  The oracle says for the n-th
    call whether it succeeds ([None]) or fails after writing some characters ([Some k]). *)
Record stream := mkStream { s_out : list Z; s_calls : nat }.
Definition oracle := nat -> option nat.
(** fprintf/fputc of a text: the return value is the number of characters, or -1 on failure *)
Definition fwrite (o : oracle) (txt : list Z) (s : stream) : Z * stream :=
  match o (s_calls s) with
  | None => (Z.of_nat (length txt), mkStream (s_out s ++ txt) (S (s_calls s)))
  | Some k => (-1, mkStream (s_out s ++ firstn k txt) (S (s_calls s)))
  end.

(** one lower-case hexadecimal digit; the conversion %02hhx of printf *)
Definition hex_digit (d : Z) : Z := if d <? 10 then 48 + d else 87 + d.
Definition hex2 (b : Z) : list Z := [hex_digit (b / 16); hex_digit (b mod 16)].
(** the conversion %d of printf *)
Fixpoint dec_digits (fuel : nat) (n : Z) (acc : list Z) : list Z :=
  match fuel with
  | O => acc
  | S f => let acc := 48 + n mod 10 :: acc in if n / 10 =? 0 then acc else dec_digits f (n / 10) acc
  end.
Definition dec (z : Z) : list Z := if z <? 0 then 45 :: dec_digits 20 (- z) [] else dec_digits 20 z [].

(** poik.c:1510-1512 (also 1523-1526 on the reversed bytes) *)
Fixpoint dump_hex (o : oracle) (buf : list Z) (s : stream) : bool * stream :=
  match buf with
  | [] => (true, s)
  | b :: buf => let (n, s) := fwrite o (hex2 b) s in
                if negb (2 =? n) then (false, s) else dump_hex o buf s
  end.
(** poik.c:1513, 1534, 1538 *)
Definition dump_char (o : oracle) (c : Z) (s : stream) : bool * stream :=
  let (n, s) := fwrite o [c] s in if n =? -1 then (false, s) else (true, s).
(** poik.c:1508-1516 *)
Definition Dump_Bytes (o : oracle) (buf : list Z) (s : stream) : bool * stream :=
  let (ok, s) := dump_hex o buf s in
  if negb ok then (false, s) else dump_char o 10 s.
(** poik.c:1520-1528; the loop runs from the last byte to the first *)
Definition dump_packed_fp (o : oracle) (v : list Z) (s : stream) : bool * stream :=
  let (n, s) := fwrite o [48; 120] s in
  if negb (2 =? n) then (false, s) else dump_hex o (rev v) s.
(** poik.c:1530-1541 *)
Definition Dump_Fp2 (K : pok) (o : oracle) (v : list Z) (s : stream) : bool * stream :=
  let (ok, s) := dump_packed_fp o (fp2_real K v) s in
  if negb ok then (false, s) else
  let (ok, s) := dump_char o 44 s in
  if negb ok then (false, s) else
  let (ok, s) := dump_packed_fp o (fp2_imag K v) s in
  if negb ok then (false, s) else dump_char o 10 s.
(** the macros dump/dump_bytes (poik.c:1544-1545) in sequence: stop at the first failure *)
Fixpoint dump_seq (l : list (stream -> bool * stream)) (s : stream) : bool * stream :=
  match l with
  | [] => (true, s)
  | d :: l => let (ok, s) := d s in if negb ok then (false, s) else dump_seq l s
  end.
(** poik.c:1549-1577, one iteration; the result of the fprintf of the tag is ignored (1552) *)
Definition dump_response (K : pok) (o : oracle) (r : response) (s : stream) : out (bool * stream) :=
  let (_, s) := fwrite o (dec (r_tag r) ++ [10]) s in
  if r_tag r =? RESP_LEFT then
    Ok (dump_seq (Dump_Bytes o (left_r2 K r) :: Dump_Bytes o (left_h3 K r) ::
                  map (fun i => Dump_Fp2 K o (left_x K r i)) (seq 0 (height K))) s)
  else if r_tag r =? RESP_BOTTOM then
    Ok (dump_seq (Dump_Bytes o (bottom_r2 K r) :: Dump_Bytes o (bottom_r3 K r) :: Dump_Fp2 K o (bottom_E2 K r) ::
                  map (fun i => Dump_Fp2 K o (bottom_x K r i)) (seq 0 (width K))) s)
  else if r_tag r =? RESP_RIGHT then
    Ok (dump_seq (Dump_Bytes o (right_h2 K r) :: Dump_Bytes o (right_r3 K r) ::
                  map (fun i => Dump_Fp2 K o (right_x K r i)) (seq 0 (height K))) s)
  else UB.
Fixpoint dump_responses (K : pok) (o : oracle) (l : list response) (s : stream) : out (bool * stream) :=
  match l with
  | [] => Ok (true, s)
  | r :: l => do (ok, s) <- dump_response K o r s;;
              if negb ok then Ok (false, s) else dump_responses K o l s
  end.
(** poik.c:1543-1582 *)
Definition Dump (K : pok) (o : oracle) (prf : proof) (s : stream) : out (bool * stream) :=
  let (ok, s) := dump_seq [Dump_Fp2 K o (p_E0 prf); Dump_Fp2 K o (p_E1 prf)] s in
  if negb ok then Ok (false, s) else dump_responses K o (p_resp prf) s.

(** ** Input *)
(** A parser reads a stream and either fails ([Ok None], the C function returns false or -1), returns a
    value and the unread rest, or runs into undefined behaviour. *)
Definition parser (A : Type) := list Z -> out (option (A * list Z)).
Definition pbind {A B} (p : parser A) (q : A -> parser B) : parser B := fun f =>
  do r <- p f;; match r with None => Ok None | Some (a, f) => q a f end.
Definition pret {A} (a : A) : parser A := fun f => Ok (Some (a, f)).
Definition pfail {A} : parser A := fun _ => Ok None.
Notation "'let*' x := p 'in' q" := (pbind p (fun x => q)) (at level 200, x pattern, p at level 100, q at level 200).

(** isspace in the C locale; a white-space directive of scanf *)
Definition isspace (c : Z) : bool := (c =? 32) || ((9 <=? c) && (c <=? 13)).
Fixpoint skip_ws (f : list Z) : list Z :=
  match f with
  | c :: f' => if isspace c then skip_ws f' else f
  | [] => []
  end.
Definition isdigit (c : Z) : bool := (48 <=? c) && (c <=? 57).
Definition is_hex (c : Z) : bool := isdigit c || ((65 <=? c) && (c <=? 70)) || ((97 <=? c) && (c <=? 102)).
(** isxdigit applied to a (signed) char: bytes 128..254 are negative and not EOF, which is undefined
    (C11 7.4p1); byte 255 is EOF. *)
Definition isxdigit (c : Z) : out bool := if (128 <=? c) && (c <? 255) then UB else Ok (is_hex c).
Definition hex_val (c : Z) : Z := if c <=? 57 then c - 48 else if c <=? 70 then c - 55 else c - 87.

(** poik.c:1584-1591; [None] is the return value -1.  fscanf "%c%c" does not skip white space. *)
Definition parse_hex_byte : parser Z := fun f =>
  match f with
  | a :: b :: f =>
      do xa <- isxdigit a;;
      if negb xa then Ok None else
      do xb <- isxdigit b;;
      if negb xb then Ok None else Ok (Some (16 * hex_val a + hex_val b, f))
  | _ => Ok None
  end.
(** poik.c:1596-1601 and 1611-1616: n bytes in reading order *)
Fixpoint parse_hex (n : nat) : parser (list Z) :=
  match n with
  | O => pret []
  | S n => let* c := parse_hex_byte in let* l := parse_hex n in pret (c :: l)
  end.
(** poik.c:1593-1603 *)
Definition Parse_Bytes (n : nat) : parser (list Z) := fun f => parse_hex n (skip_ws f).
(** poik.c:1609, fscanf "%c%c" against '0', 'x' *)
Definition parse_0x : parser unit := fun f =>
  match f with
  | a :: b :: f => if (a =? 48) && (b =? 120) then Ok (Some (tt, f)) else Ok None
  | _ => Ok None
  end.
(** poik.c:1605-1618: the first byte read is the last byte of v *)
Definition parse_packed_fp (n : nat) : parser (list Z) := fun f =>
  (let* _ := parse_0x in let* l := parse_hex n in pret (rev l)) (skip_ws f).
(** poik.c:1624-1626, fscanf " %c" against ',' *)
Definition parse_comma : parser unit := fun f =>
  match skip_ws f with
  | c :: f => if c =? 44 then Ok (Some (tt, f)) else Ok None
  | [] => Ok None
  end.
(** poik.c:1620-1630 *)
Definition Parse_Fp2 (K : pok) : parser (list Z) :=
  let* re := parse_packed_fp (fp_bytes (fpar K)) in
  let* _ := parse_comma in
  let* im := parse_packed_fp (fp_bytes (fpar K)) in
  pret (re ++ im).
(** fscanf " %d" (poik.c:1643): optional sign, longest run of decimal digits; a value that does not fit
    an int is undefined behaviour (C11 7.21.6.2p10). *)
Fixpoint scan_digits (f : list Z) (acc : Z) : Z * list Z :=
  match f with
  | c :: f' => if isdigit c then scan_digits f' (10 * acc + (c - 48)) else (acc, f)
  | [] => (acc, [])
  end.
Definition scan_sign (f : list Z) : Z * list Z :=
  match f with
  | c :: f' => if c =? 45 then (-1, f') else if c =? 43 then (1, f') else (1, f)
  | [] => (1, [])
  end.
Definition scan_int : parser Z := fun f =>
  let (sg, f) := scan_sign (skip_ws f) in
  match f with
  | c :: _ =>
      if isdigit c then
        let (v, f) := scan_digits f 0 in
        let z := sg * v in
        if (- 2 ^ 31 <=? z) && (z <? 2 ^ 31) then Ok (Some (z, f)) else UB
      else Ok None
  | [] => Ok None
  end.
(** loops over the packed elements of a chain (poik.c:1650-1651, 1657-1658, 1663-1664) *)
Fixpoint parse_chain (K : pok) (n : nat) : parser (list Z) :=
  match n with
  | O => pret []
  | S n => let* v := Parse_Fp2 K in let* l := parse_chain K n in pret (v ++ l)
  end.
(** writing the active member of the union (all members start at offset 0) *)
Definition overwrite (data mem : list Z) : list Z := data ++ skipn (length data) mem.
(** poik.c:1640-1668, one iteration *)
Definition parse_response (K : pok) (r : response) : parser response :=
  let* tag := scan_int in
  if tag =? RESP_LEFT then
    let* r2 := Parse_Bytes (hide_bytes K) in
    let* h3 := Parse_Bytes (hash_bytes K) in
    let* x := parse_chain K (height K) in
    pret (mkResp tag (overwrite (r2 ++ h3 ++ x) (r_mem r)))
  else if tag =? RESP_BOTTOM then
    let* r2 := Parse_Bytes (hide_bytes K) in
    let* r3 := Parse_Bytes (hide_bytes K) in
    let* e2 := Parse_Fp2 K in
    let* x := parse_chain K (width K) in
    pret (mkResp tag (overwrite (r2 ++ r3 ++ e2 ++ x) (r_mem r)))
  else if tag =? RESP_RIGHT then
    let* h2 := Parse_Bytes (hash_bytes K) in
    let* r3 := Parse_Bytes (hide_bytes K) in
    let* x := parse_chain K (height K) in
    pret (mkResp tag (overwrite (h2 ++ r3 ++ x) (r_mem r)))
  else pfail.
Fixpoint parse_responses (K : pok) (l : list response) : parser (list response) :=
  match l with
  | [] => pret []
  | r :: l => let* r' := parse_response K r in let* l' := parse_responses K l in pret (r' :: l')
  end.
(** poik.c:1632-1673; [prf] is the previous (uninitialised) content of the object, with POIK_REPS responses *)
Definition Parse (K : pok) (prf : proof) : parser proof :=
  let* e0 := Parse_Fp2 K in
  let* e1 := Parse_Fp2 K in
  let* rs := parse_responses K (p_resp prf) in
  pret (mkProof e0 e1 rs).
