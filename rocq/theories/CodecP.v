(** Proofs about the text format. *)
From Verif Require Import Base BaseP Out Params Poik Codec CodecSpec.

(** ** Characters *)
Ltac chr := unfold isxdigit, is_hex, isdigit, isspace, hex_val, hex_digit, lower in *.
Lemma hex_digit_hex d : 0 <= d < 16 -> is_hex (hex_digit d) = true.
Proof. chr. destruct (Z.ltb_spec d 10); lia. Qed.
Lemma hex_digit_val d : 0 <= d < 16 -> hex_val (hex_digit d) = d.
Proof. chr. destruct (Z.ltb_spec d 10); destruct (Z.leb_spec (48 + d) 57); destruct (Z.leb_spec (87 + d) 57);
  destruct (Z.leb_spec (87 + d) 70); lia. Qed.
Lemma isxdigit_hex c : is_hex c = true -> isxdigit c = Ok true.
Proof. intros H. unfold isxdigit. rewrite H. destruct (andb _ _) eqn:E; auto. chr. lia. Qed.
Lemma isxdigit_true c : isxdigit c = Ok true -> is_hex c = true.
Proof. unfold isxdigit. destruct (andb _ _); congruence. Qed.
Lemma hex_val_range c : is_hex c = true -> 0 <= hex_val c < 16.
Proof. chr. destruct (Z.leb_spec c 57), (Z.leb_spec c 70); lia. Qed.
Lemma hex_digit_val_lower c : is_hex c = true -> hex_digit (hex_val c) = lower c.
Proof.
  chr. intros H. destruct (Z.leb_spec c 57); [|destruct (Z.leb_spec c 70)];
  match goal with |- (if ?x <? 10 then _ else _) = _ => destruct (Z.ltb_spec x 10) end;
  match goal with |- _ = (if ?b then _ else _) => destruct b eqn:E2 end; lia.
Qed.
Lemma lower_hex c : is_hex (lower c) = true -> is_hex c = true.
Proof. unfold lower. destruct ((65 <=? c) && (c <=? 70)) eqn:E; chr; lia. Qed.
Lemma hex_val_lower c : is_hex c = true -> hex_val (lower c) = hex_val c.
Proof.
  intros H. rewrite <- (hex_digit_val_lower c H). apply hex_digit_val, hex_val_range, H.
Qed.
Lemma hex_not_space c : is_hex c = true -> isspace c = false.
Proof. chr. lia. Qed.
Lemma hex2_range b : 0 <= b < 256 -> 0 <= b / 16 < 16 /\ 0 <= b mod 16 < 16.
Proof. lia. Qed.
Lemma hex2_length b : length (hex2 b) = 2%nat.
Proof. reflexivity. Qed.

(** ** Output *)
Definition all_ok : oracle := fun _ => None.
Definition writes (w : oracle -> stream -> bool * stream) (txt : list Z) : Prop := forall o s,
  (fst (w o s) = true -> s_out (snd (w o s)) = s_out s ++ txt) /\
  ((forall i, o i = None) -> fst (w o s) = true).

Lemma fwrite_ret o txt s : (0 < length txt)%nat ->
  fst (fwrite o txt s) = Z.of_nat (length txt) /\ s_out (snd (fwrite o txt s)) = s_out s ++ txt \/
  fst (fwrite o txt s) = -1 /\ o (s_calls s) <> None.
Proof. unfold fwrite. destruct (o (s_calls s)); cbn; [right; split; auto; discriminate|left; auto]. Qed.

Lemma dump_hex_writes l : writes (fun o => dump_hex o l) (hex_text l).
Proof.
  induction l as [|b l IH]; intros o s; [cbn; rewrite app_nil_r; auto|].
  cbn [dump_hex hex_text flat_map]. destruct (fwrite o (hex2 b) s) as [n s1] eqn:E.
  destruct (fwrite_ret o (hex2 b) s) as [[A B]|[A B]]; [cbn; lia| |].
  - rewrite E in A, B. cbn [fst snd] in A, B. rewrite hex2_length in A. subst n. cbn [Z.of_nat Pos.of_succ_nat Z.eqb negb].
    change (2 =? 2) with true. cbn [negb]. specialize (IH o s1). fold (hex_text l). rewrite app_assoc, <- B. exact IH.
  - rewrite E in A. cbn [fst] in A. subst n. change (2 =? -1) with false. cbn. split; [discriminate|]. intros H. now elim B.
Qed.
Lemma dump_char_writes c : writes (fun o => dump_char o c) [c].
Proof.
  intros o s. unfold dump_char. destruct (fwrite o [c] s) as [n s1] eqn:E.
  destruct (fwrite_ret o [c] s) as [[A B]|[A B]]; [cbn; lia| |]; rewrite E in A; cbn [fst snd length] in A.
  - rewrite E in B. cbn [snd] in B. subst n. cbn. auto.
  - subst n. cbn. split; [discriminate|]. intros H. now elim B.
Qed.
Lemma writes_then w1 w2 t1 t2 : writes w1 t1 -> writes w2 t2 ->
  writes (fun o s => let (ok, s) := w1 o s in if negb ok then (false, s) else w2 o s) (t1 ++ t2).
Proof.
  intros H1 H2 o s. specialize (H1 o s). destruct (w1 o s) as [ok s1]; cbn [fst snd] in H1.
  destruct ok; cbn [negb].
  - specialize (H2 o s1). destruct H1 as [A _]. rewrite app_assoc, <- A by auto. tauto.
  - cbn. split; [discriminate|]. tauto.
Qed.
Lemma Dump_Bytes_writes l : writes (fun o => Dump_Bytes o l) (hex_text l ++ [10]).
Proof. exact (writes_then _ _ _ _ (dump_hex_writes l) (dump_char_writes 10)). Qed.
Lemma dump_packed_fp_writes v : writes (fun o => dump_packed_fp o v) (fp_text v).
Proof.
  intros o s. unfold dump_packed_fp. destruct (fwrite o [48; 120] s) as [n s1] eqn:E.
  destruct (fwrite_ret o [48; 120] s) as [[A B]|[A B]]; [cbn; lia| |]; rewrite E in A; cbn [fst snd length] in A.
  - rewrite E in B. cbn [snd] in B. subst n. change (2 =? Z.of_nat 2) with true. cbn [negb].
    unfold fp_text. rewrite app_assoc, <- B. apply dump_hex_writes.
  - subst n. change (2 =? -1) with false. cbn. split; [discriminate|]. intros H. now elim B.
Qed.
Lemma Dump_Fp2_writes K v : writes (fun o => Dump_Fp2 K o v) (fp2_text K v).
Proof.
  refine (writes_then _ _ _ _ (dump_packed_fp_writes (fp2_real K v)) _).
  refine (writes_then _ _ _ _ (dump_char_writes 44) _).
  exact (writes_then _ _ _ _ (dump_packed_fp_writes (fp2_imag K v)) (dump_char_writes 10)).
Qed.
Lemma dump_seq_writes {A} (f : oracle -> A -> stream -> bool * stream) (t : A -> list Z) l :
  (forall a, writes (fun o => f o a) (t a)) -> writes (fun o => dump_seq (map (f o) l)) (flat_map t l).
Proof.
  intros H. induction l as [|a l IH]; [intros o s; cbn; rewrite app_nil_r; auto|].
  exact (writes_then _ _ _ _ (H a) IH).
Qed.
Lemma dump_seq_cons w1 (w2 : oracle -> list (stream -> bool * stream)) t1 t2 :
  writes w1 t1 -> writes (fun o => dump_seq (w2 o)) t2 -> writes (fun o => dump_seq (w1 o :: w2 o)) (t1 ++ t2).
Proof. intros H1 H2. exact (writes_then _ _ _ _ H1 H2). Qed.

(** the part of a response after the tag line *)
Definition response_body (K : pok) (r : response) : list Z :=
  if r_tag r =? -1 then
    hex_text (left_r2 K r) ++ [10] ++ hex_text (left_h3 K r) ++ [10] ++
    flat_map (fun i => fp2_text K (left_x K r i)) (seq 0 (height K))
  else if r_tag r =? 0 then
    hex_text (bottom_r2 K r) ++ [10] ++ hex_text (bottom_r3 K r) ++ [10] ++ fp2_text K (bottom_E2 K r) ++
    flat_map (fun i => fp2_text K (bottom_x K r i)) (seq 0 (width K))
  else
    hex_text (right_h2 K r) ++ [10] ++ hex_text (right_r3 K r) ++ [10] ++
    flat_map (fun i => fp2_text K (right_x K r i)) (seq 0 (height K)).
Lemma dec_tag t : legal_tag t -> dec t = tag_text t.
Proof. intros [-> | [-> | ->]]; reflexivity. Qed.
Lemma dump_response_spec K o r s : legal_tag (r_tag r) ->
  exists ok s', dump_response K o r s = Ok (ok, s') /\
    (ok = true -> exists l, (l = tag_text (r_tag r) ++ [10] \/ exists k, l = firstn k (tag_text (r_tag r) ++ [10])) /\
                  s_out s' = s_out s ++ l ++ response_body K r) /\
    ((forall i, o i = None) -> ok = true /\ s_out s' = s_out s ++ response_text K r).
Proof.
  intros L. unfold dump_response. destruct (fwrite o (dec (r_tag r) ++ [10]) s) as [n s1] eqn:E.
  assert (W : exists w, dump_response K o r s = Ok (w o s1) /\ writes w (response_body K r)).
  { unfold dump_response. rewrite E. unfold response_body, RESP_LEFT, RESP_BOTTOM, RESP_RIGHT.
    destruct L as [-> | [-> | ->]]; cbn [Z.eqb Pos.eqb].
    - eexists (fun o => _). split; [reflexivity|].
      rewrite !(app_assoc (hex_text _) [10]).
      apply dump_seq_cons; [apply Dump_Bytes_writes|]. apply dump_seq_cons; [apply Dump_Bytes_writes|].
      apply dump_seq_writes with (f := fun o i => Dump_Fp2 K o (left_x K r i)). intros. apply Dump_Fp2_writes.
    - eexists (fun o => _). split; [reflexivity|].
      rewrite !(app_assoc (hex_text _) [10]).
      apply dump_seq_cons; [apply Dump_Bytes_writes|]. apply dump_seq_cons; [apply Dump_Bytes_writes|].
      apply dump_seq_cons; [apply Dump_Fp2_writes|].
      apply dump_seq_writes with (f := fun o i => Dump_Fp2 K o (bottom_x K r i)). intros. apply Dump_Fp2_writes.
    - eexists (fun o => _). split; [reflexivity|].
      rewrite !(app_assoc (hex_text _) [10]).
      apply dump_seq_cons; [apply Dump_Bytes_writes|]. apply dump_seq_cons; [apply Dump_Bytes_writes|].
      apply dump_seq_writes with (f := fun o i => Dump_Fp2 K o (right_x K r i)). intros. apply Dump_Fp2_writes. }
  destruct W as (w & W1 & W2). unfold dump_response in W1. rewrite E in W1. rewrite W1.
  specialize (W2 o s1). destruct (w o s1) as [ok s']. cbn [fst snd] in W2. exists ok, s'.
  split; [reflexivity|]. rewrite dec_tag in E by auto. unfold fwrite in E. split.
  - intros ->. destruct W2 as [W2 _]. specialize (W2 eq_refl). destruct (o (s_calls s)) as [k|]; injection E as <- <-; cbn [s_out] in W2.
    + exists (firstn k (tag_text (r_tag r) ++ [10])). split; [right; eauto|]. now rewrite app_assoc.
    + exists (tag_text (r_tag r) ++ [10]). split; [left; auto|]. now rewrite app_assoc.
  - intros Ho. rewrite (Ho (s_calls s)) in E. injection E as <- <-. destruct W2 as [W2 W3]. specialize (W3 Ho).
    split; auto. rewrite W2 by auto. cbn [s_out]. unfold response_text. fold (response_body K r).
    now rewrite <- !app_assoc.
Qed.
Lemma dump_responses_spec K o l : Forall (fun r => legal_tag (r_tag r)) l -> forall s,
  exists ok s', dump_responses K o l s = Ok (ok, s') /\
    (ok = true -> exists ls, Forall2 (fun t r => t = tag_text (r_tag r) ++ [10] \/ exists k, t = firstn k (tag_text (r_tag r) ++ [10])) ls l /\
                  s_out s' = s_out s ++ concat (map (fun x => fst x ++ response_body K (snd x)) (combine ls l))) /\
    ((forall i, o i = None) -> ok = true /\ s_out s' = s_out s ++ flat_map (response_text K) l).
Proof.
  induction 1 as [|r l L _ IH]; intros s.
  - exists true, s. cbn. rewrite app_nil_r. split; auto. split; [exists []; split; cbn; auto; now rewrite app_nil_r|auto].
  - destruct (dump_response_spec K o r s L) as (ok & s1 & E & H1 & H2). cbn [dump_responses]. rewrite E. cbn [bind].
    destruct ok; cbn [negb].
    + destruct (IH s1) as (ok & s2 & E' & H1' & H2'). exists ok, s2. split; [exact E'|]. split.
      * intros ->. destruct H1 as (t & Ht & O1); auto. destruct H1' as (ls & Hls & O2); auto.
        exists (t :: ls). split; [constructor; auto|]. rewrite O2, O1. cbn. now rewrite <- !app_assoc.
      * intros Ho. destruct (H2 Ho) as [_ O1]. destruct (H2' Ho) as [-> O2]. split; auto. rewrite O2, O1. cbn.
        now rewrite <- !app_assoc.
    + exists false, s1. split; [reflexivity|]. split; [discriminate|]. intros Ho. now destruct (H2 Ho).
Qed.
Lemma dump_heads_writes K p : writes (fun o => dump_seq [Dump_Fp2 K o (p_E0 p); Dump_Fp2 K o (p_E1 p)])
  (fp2_text K (p_E0 p) ++ fp2_text K (p_E1 p)).
Proof.
  rewrite <- (app_nil_r (fp2_text K (p_E1 p))).
  apply dump_seq_cons with (w2 := fun o => [Dump_Fp2 K o (p_E1 p)]); [apply Dump_Fp2_writes|].
  apply dump_seq_cons with (w2 := fun o => []); [apply Dump_Fp2_writes|]. intros o s. cbn. rewrite app_nil_r. auto.
Qed.
Lemma Dump_spec K o p s : legal_tags p ->
  exists ok s', Dump K o p s = Ok (ok, s') /\
    (ok = true -> exists ls, Forall2 (fun t r => t = tag_text (r_tag r) ++ [10] \/ exists k, t = firstn k (tag_text (r_tag r) ++ [10])) ls (p_resp p) /\
       s_out s' = s_out s ++ fp2_text K (p_E0 p) ++ fp2_text K (p_E1 p) ++
         concat (map (fun x => fst x ++ response_body K (snd x)) (combine ls (p_resp p)))) /\
    ((forall i, o i = None) -> ok = true /\ s_out s' = s_out s ++ proof_text K p).
Proof.
  intros L. unfold Dump. pose proof (dump_heads_writes K p o s) as H. cbv beta in H.
  destruct (dump_seq _ s) as [ok s1]. cbn [fst snd] in H. destruct ok; cbn [negb].
  - destruct (dump_responses_spec K o (p_resp p) L s1) as (ok & s2 & E & H1 & H2). exists ok, s2.
    destruct H as [H _]. specialize (H eq_refl). split; [exact E|]. split.
    + intros Hok. destruct (H1 Hok) as (ls & Hl & O). exists ls. split; auto. rewrite O, H. now rewrite <- !app_assoc.
    + intros Ho. destruct (H2 Ho) as [-> O]. split; auto. rewrite O, H. unfold proof_text. now rewrite <- !app_assoc.
  - exists false, s1. split; auto. split; [discriminate|]. intros Ho. destruct H as [_ H]. now specialize (H Ho).
Qed.
Lemma Dump_illegal K p s : Exists (fun r => ~ legal_tag (r_tag r)) (p_resp p) -> Dump K all_ok p s = UB.
Proof.
  intros HE. unfold Dump. destruct (dump_heads_writes K p all_ok s) as [_ H]. cbv beta in H.
  destruct (dump_seq _ s) as [ok0 s1]. cbn [fst] in H. rewrite H by reflexivity. cbn [negb].
  clear H. revert s1. induction HE as [r l Hr|r l Hr IH]; intros s1; cbn [dump_responses].
  - unfold dump_response. destruct (fwrite _ _ _). unfold RESP_LEFT, RESP_BOTTOM, RESP_RIGHT, legal_tag in *.
    destruct (Z.eqb_spec (r_tag r) (-1)); [tauto|]. destruct (Z.eqb_spec (r_tag r) 0); [tauto|].
    destruct (Z.eqb_spec (r_tag r) 1); [tauto|]. reflexivity.
  - assert (D : legal_tag (r_tag r) \/ ~ legal_tag (r_tag r)) by (unfold legal_tag; lia). destruct D as [D|D].
    + destruct (dump_response_spec K all_ok r s1 D) as (ok & s2 & -> & _ & H2). cbn [bind].
      destruct H2 as [-> _]; [reflexivity|]. cbn [negb]. apply IH.
    + unfold dump_response. destruct (fwrite _ _ _). unfold RESP_LEFT, RESP_BOTTOM, RESP_RIGHT, legal_tag in *.
      destruct (Z.eqb_spec (r_tag r) (-1)); [tauto|]. destruct (Z.eqb_spec (r_tag r) 0); [tauto|].
      destruct (Z.eqb_spec (r_tag r) 1); [tauto|]. reflexivity.
Qed.
