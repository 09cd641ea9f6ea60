(** Property theorems C01 - C06 and C51: the text format of proofs and curves. *)
From Verif Require Import Base Out Params Poik Codec CodecSpec CodecP CodecThm CodecMore.

(** [wf_proof K p]: p has the array sizes of struct proof, bytes are bytes; p0 is the arbitrary content
    of the object Parse writes to; [fun _ => None] is a stream on which every write succeeds. *)

(** * C01 *)
Theorem C01_roundtrip : forall K p p0 suffix, (0 < hide_bytes K)%nat -> (0 < hash_bytes K)%nat ->
  wf_proof K p -> legal_tags p -> wf_proof K p0 ->
  exists s, Dump K (fun _ => None) p (mkStream [] 0) = Ok (true, s) /\ s_out s = proof_text K p /\
  exists q, Parse K p0 (s_out s ++ suffix) = Ok (Some (q, 10 :: suffix)) /\ same_proof K p q /\ wf_proof K q.
Proof. exact roundtrip. Qed.
Print Assumptions C01_roundtrip.

Definition K_small : pok := mkPok (P434 T64) 3 1 1 1 2.
Definition ex_proof : proof := mkProof (map Z.of_nat (seq 1 110)) (map Z.of_nat (seq 101 110))
  [mkResp (-1) (map Z.of_nat (seq 3 224)); mkResp 0 (map Z.of_nat (seq 5 224)); mkResp 1 (map Z.of_nat (seq 7 224))].
Lemma ex_wf : wf_proof K_small ex_proof /\ legal_tags ex_proof.
Proof.
  split; [|repeat constructor; unfold legal_tag; cbn; lia].
  repeat split; try reflexivity; try (repeat constructor; cbn; lia).
Qed.
Example C01_example :
  match Dump K_small (fun _ => None) ex_proof (mkStream [] 0) with
  | Ok (true, s) => length (s_out s) = 1389%nat /\ firstn 8 (s_out s) = [48; 120; 51; 55; 51; 54; 51; 53] /\
      Parse K_small ex_proof (s_out s ++ [65]) = Ok (Some (ex_proof, [10; 65]))
  | _ => False
  end.
Proof. vm_compute. repeat split. Qed.

(** * C02 *)
Theorem C02_wellformed : forall K p0 text p rest, (0 < hide_bytes K)%nat -> (0 < hash_bytes K)%nat -> wf_proof K p0 ->
  Parse K p0 text = Ok (Some (p, rest)) ->
  wf_proof K p /\ legal_tags p /\
  (forall p1, wf_proof K p1 -> exists q, Parse K p1 text = Ok (Some (q, rest)) /\ same_proof K p q) /\
  exists s, Dump K (fun _ => None) p (mkStream [] 0) = Ok (true, s) /\
    forall p1, wf_proof K p1 -> exists q, Parse K p1 (s_out s) = Ok (Some (q, [10])) /\ same_proof K p q.
Proof. exact parse_wellformed. Qed.
Print Assumptions C02_wellformed.
(** tag 2 is refused *)
Example C02_example : Parse K_small ex_proof (fp2_text K_small (p_E0 ex_proof) ++ fp2_text K_small (p_E1 ex_proof) ++ [50; 10]) = Ok None.
Proof. vm_compute. reflexivity. Qed.

(** * C03 *)
Theorem C03_truncated : forall K p p0 s t1 t2, (0 < hide_bytes K)%nat -> (0 < hash_bytes K)%nat ->
  wf_proof K p -> legal_tags p -> wf_proof K p0 ->
  Dump K (fun _ => None) p (mkStream [] 0) = Ok (true, s) -> s_out s = t1 ++ t2 -> (2 <= length t2)%nat ->
  Parse K p0 t1 = Ok None.
Proof. exact truncated. Qed.
Print Assumptions C03_truncated.
(** the limit 2 is sharp: without the final newline alone the text is still accepted *)
Example C03_example : Parse K_small ex_proof (firstn 1388 (proof_text K_small ex_proof)) = Ok (Some (ex_proof, [])) /\
  Parse K_small ex_proof (firstn 1387 (proof_text K_small ex_proof)) = Ok None.
Proof. vm_compute. split; reflexivity. Qed.

(** * C04 *)
Theorem C04_fp2_roundtrip : forall K v suffix, length v = sidh_bytes K -> digits 256 v ->
  exists s, Dump_Fp2 K (fun _ => None) v (mkStream [] 0) = (true, s) /\
  s_out s = [48; 120] ++ flat_map hex2 (rev (fp2_real K v)) ++ [44; 48; 120] ++ flat_map hex2 (rev (fp2_imag K v)) ++ [10] /\
  Parse_Fp2 K (s_out s ++ suffix) = Ok (Some (v, 10 :: suffix)).
Proof. exact fp2_roundtrip. Qed.
Print Assumptions C04_fp2_roundtrip.
Example C04_example : hex2 10 = [48; 97] /\ hex2 255 = [102; 102] /\
  Parse_Fp2 K_small (fp2_text K_small (repeat 171 110)) = Ok (Some (repeat 171 110, [10])).
Proof. vm_compute. repeat split. Qed.

(** * C05 *)
Theorem C05_sound : forall K p0 text p rest, (0 < hide_bytes K)%nat -> (0 < hash_bytes K)%nat -> wf_proof K p0 ->
  Parse K p0 text = Ok (Some (p, rest)) -> exists w, text = w ++ rest /\ layout (proof_tokens K p) w rest.
Proof. exact parse_sound. Qed.
Print Assumptions C05_sound.
(** Conversely every spelling of the tokens of p, with any letter case and white space, gives p. *)
Theorem C05_complete : forall K p0 p w rest, (0 < hide_bytes K)%nat -> (0 < hash_bytes K)%nat ->
  wf_proof K p0 -> wf_proof K p -> legal_tags p -> layout (proof_tokens K p) w rest ->
  exists q, Parse K p0 (w ++ rest) = Ok (Some (q, rest)) /\ same_proof K p q.
Proof. exact parse_complete. Qed.
Print Assumptions C05_complete.
(** The tokens are those of the Dump text. *)
Theorem C05_tokens_of_dump : forall K p, wf_proof K p -> legal_tags p ->
  filter (fun c => negb (c =? 10)) (proof_text K p) =
  concat (map (fun t => match t with Thex x => x | Tint z => tag_text z end) (proof_tokens K p)).
Proof. exact dump_tokens. Qed.
Print Assumptions C05_tokens_of_dump.
(** upper case and spaces are accepted, an upper-case 0X is not *)
Example C05_example :
  Parse_Fp2 K_small ([32; 48; 120] ++ flat_map (fun _ => [65; 66]) (seq 0 55) ++ [9; 44; 10; 48; 120] ++ flat_map (fun _ => [97; 66]) (seq 0 55)) =
    Ok (Some (repeat 171 110, [])) /\
  Parse_Fp2 K_small ([48; 88] ++ flat_map (fun _ => [65; 66]) (seq 0 55)) = Ok None.
Proof. vm_compute. split; reflexivity. Qed.

(** * C06 *)
Theorem C06_dump_fp2 : forall K v o s s', Dump_Fp2 K o v s = (true, s') -> s_out s' = s_out s ++ fp2_text K v.
Proof. exact (fun K v o s s' H => eq_trans (f_equal (fun x => s_out (snd x)) (eq_sym H)) (proj1 (Dump_Fp2_writes K v o s) (f_equal fst H))). Qed.
Print Assumptions C06_dump_fp2.
(** Dump: everything but the tag lines is written completely (a tag line may be cut anywhere). *)
Theorem C06_dump_partial : forall K o p s, legal_tags p -> exists ok s', Dump K o p s = Ok (ok, s') /\
  (ok = true -> exists tag_lines,
     Forall2 (fun t r => t = tag_text (r_tag r) ++ [10] \/ exists k, t = firstn k (tag_text (r_tag r) ++ [10])) tag_lines (p_resp p) /\
     s_out s' = s_out s ++ fp2_text K (p_E0 p) ++ fp2_text K (p_E1 p) ++
       concat (map (fun x => fst x ++ response_body K (snd x)) (combine tag_lines (p_resp p)))) /\
  ((forall i, o i = None) -> ok = true /\ s_out s' = s_out s ++ proof_text K p).
Proof. exact Dump_spec. Qed.
Print Assumptions C06_dump_partial.
(** The full claim is false for every proof: a single failing call goes unnoticed and the text is too short. *)
Theorem C06_dump_refuted : forall K p, legal_tags p -> p_resp p <> [] ->
  exists bad s, Dump K (fun i => if (i =? bad)%nat then Some 0%nat else None) p (mkStream [] 0) = Ok (true, s) /\
    length (s_out s) <> length (proof_text K p).
Proof. exact dump_lies. Qed.
Print Assumptions C06_dump_refuted.
Example C06_example : match Dump K_small (fun i => if (i =? 228)%nat then Some 0%nat else None) ex_proof (mkStream [] 0) with
  | Ok (true, s) => length (s_out s) = 1386%nat | _ => False end /\
  match Dump K_small (fun i => if (i =? 229)%nat then Some 0%nat else None) ex_proof (mkStream [] 0) with
  | Ok (false, s) => True | _ => False end.
Proof. vm_compute. split; reflexivity || exact I. Qed.

(** * C51: Parse has defined behaviour except on bytes 128..254 and oversized decimal numbers *)
Theorem C51_parse_defined : forall K p0 text,
  (exists p consumed rest, Parse K p0 text = Ok (Some (p, rest)) /\ text = consumed ++ rest) \/
  Parse K p0 text = Ok None \/
  (Parse K p0 text = UB /\
   (Exists (fun c => 128 <= c < 255) text \/
    exists a ds b, text = a ++ ds ++ b /\ forallb isdigit ds = true /\ 2 ^ 31 <= decimal ds)).
Proof. exact safe_Parse. Qed.
Print Assumptions C51_parse_defined.
(** Both exceptions occur. *)
Theorem C51_parse_defined_refuted :
  (forall K p0, (0 < fp_bytes (fpar K))%nat -> Parse K p0 [48; 120; 200; 48] = UB) /\
  (exists p0 text, digits 128 text /\ Parse K_small p0 text = UB).
Proof.
  split.
  - intros K p0 H. unfold Parse, Parse_Fp2, pbind, parse_packed_fp. destruct (fp_bytes (fpar K)); [exfalso; lia|reflexivity].
  - exists ex_proof, (fp2_text K_small (p_E0 ex_proof) ++ fp2_text K_small (p_E1 ex_proof) ++ [52; 50; 57; 52; 57; 54; 55; 50; 57; 53; 10]).
    split; [|vm_compute; reflexivity]. apply Forall_forall. intros c Hc.
    assert (B : forallb (fun c => (0 <=? c) && (c <? 128)) (fp2_text K_small (p_E0 ex_proof) ++ fp2_text K_small (p_E1 ex_proof) ++
      [52; 50; 57; 52; 57; 54; 55; 50; 57; 53; 10]) = true) by (vm_compute; reflexivity).
    rewrite forallb_forall in B. specialize (B c Hc). lia.
Qed.
Print Assumptions C51_parse_defined_refuted.
