(** Statements of C01 - C06, C51 in final form (proofs only). *)
From Verif Require Import Base BaseP Out Params Poik Codec CodecSpec CodecP ParseP LayoutP CodecThm.

Definition empty_stream : stream := mkStream [] 0.
Lemma roundtrip K p p0 suffix : (0 < hide_bytes K)%nat -> (0 < hash_bytes K)%nat -> wf_proof K p -> legal_tags p -> wf_proof K p0 ->
  exists s, Dump K (fun _ => None) p (mkStream [] 0) = Ok (true, s) /\ s_out s = proof_text K p /\
  exists q, Parse K p0 (s_out s ++ suffix) = Ok (Some (q, 10 :: suffix)) /\ same_proof K p q /\ wf_proof K q.
Proof.
  intros P1 P2 W T W0. destruct (Dump_spec K (fun _ => None) p (mkStream [] 0) T) as (ok & s & E & _ & H).
  destruct H as [-> O]; [reflexivity|]. exists s. split; [exact E|]. cbn [s_out app] in O. split; [exact O|].
  exists (parsed_proof K p0 p). split; [|split; [apply parsed_proof_same; auto; apply W0|now apply parsed_proof_wf]].
  rewrite O, proof_shift, <- app_assoc. apply Parse_reads; auto; [split; auto|apply W0|right; eauto].
Qed.
Lemma truncated K p p0 s t1 t2 : (0 < hide_bytes K)%nat -> (0 < hash_bytes K)%nat -> wf_proof K p -> legal_tags p ->
  wf_proof K p0 -> Dump K (fun _ => None) p (mkStream [] 0) = Ok (true, s) -> s_out s = t1 ++ t2 -> (2 <= length t2)%nat ->
  Parse K p0 t1 = Ok None.
Proof.
  intros P1 P2 W T W0 E F L. destruct (Dump_spec K (fun _ => None) p (mkStream [] 0) T) as (ok & s' & E' & _ & H).
  destruct H as [-> O]; [reflexivity|]. rewrite E in E'. injection E' as <-. cbn [s_out app] in O.
  rewrite O, proof_shift in F. destruct (exists_last (l := t2)) as (t2' & c & ->); [intros ->; cbn in L; lia|].
  rewrite app_assoc in F. apply app_inj_tail in F as [F _].
  refine (proj2 (Parse_reads K p0 p _ W T (proj1 (proj2 (proj2 W0)))) t1 t2' F _); [split; auto|].
  intros ->. cbn in L. lia.
Qed.
Lemma fp2_roundtrip K v suffix : length v = sidh_bytes K -> digits 256 v ->
  exists s, Dump_Fp2 K (fun _ => None) v (mkStream [] 0) = (true, s) /\
  s_out s = [48; 120] ++ flat_map hex2 (rev (fp2_real K v)) ++ [44; 48; 120] ++ flat_map hex2 (rev (fp2_imag K v)) ++ [10] /\
  Parse_Fp2 K (s_out s ++ suffix) = Ok (Some (v, 10 :: suffix)).
Proof.
  intros L D. destruct (Dump_Fp2_writes K v (fun _ => None) (mkStream [] 0)) as [H1 H2].
  destruct (Dump_Fp2 K (fun _ => None) v (mkStream [] 0)) as [ok s]. cbn [fst snd s_out app] in *.
  rewrite H2 in * by reflexivity. specialize (H1 eq_refl). exists s. split; [reflexivity|]. split.
  - rewrite H1. unfold fp2_text, fp_text, hex_text. rewrite <- !app_assoc. reflexivity.
  - rewrite H1, fp2_text_line, <- app_assoc. apply Parse_Fp2_reads. split; auto.
Qed.
Lemma parse_wellformed K p0 f p rest : (0 < hide_bytes K)%nat -> (0 < hash_bytes K)%nat -> wf_proof K p0 ->
  Parse K p0 f = Ok (Some (p, rest)) ->
  wf_proof K p /\ legal_tags p /\
  (forall p1, wf_proof K p1 -> exists q, Parse K p1 f = Ok (Some (q, rest)) /\ same_proof K p q) /\
  exists s, Dump K (fun _ => None) p (mkStream [] 0) = Ok (true, s) /\
    forall p1, wf_proof K p1 -> exists q, Parse K p1 (s_out s) = Ok (Some (q, [10])) /\ same_proof K p q.
Proof.
  intros P1 P2 W0 H. assert (P : positive_sizes K) by (split; auto). destruct (Parse_inv K p0 f p rest P W0 H) as (W & T & _ & w & -> & L).
  split; auto. split; auto. split.
  - intros p1 W1. exists (parsed_proof K p1 p). split; [apply Parse_complete; auto; apply W1|].
    apply parsed_proof_same; auto. apply W1.
  - destruct (roundtrip K p p0 [] P1 P2 W T W0) as (s & E & O & _). exists s. split; auto. intros p1 W1.
    destruct (roundtrip K p p1 [] P1 P2 W T W1) as (s' & E' & O' & q & Q & S & _). exists q. rewrite O, <- O'.
    rewrite app_nil_r in Q. auto.
Qed.
Lemma parse_sound K p0 f p rest : (0 < hide_bytes K)%nat -> (0 < hash_bytes K)%nat -> wf_proof K p0 ->
  Parse K p0 f = Ok (Some (p, rest)) -> exists w, f = w ++ rest /\ layout (proof_tokens K p) w rest.
Proof. intros P1 P2 W0 H. destruct (Parse_inv K p0 f p rest (conj P1 P2) W0 H) as (_ & _ & _ & X). exact X. Qed.
Lemma parse_complete K p0 p w rest : (0 < hide_bytes K)%nat -> (0 < hash_bytes K)%nat -> wf_proof K p0 -> wf_proof K p -> legal_tags p ->
  layout (proof_tokens K p) w rest -> exists q, Parse K p0 (w ++ rest) = Ok (Some (q, rest)) /\ same_proof K p q.
Proof.
  intros P1 P2 W0 W T L. exists (parsed_proof K p0 p). split; [apply Parse_complete; auto; [split; auto|apply W0]|].
  apply parsed_proof_same; auto. apply W0.
Qed.
Definition token_text (t : token) : list Z := match t with Thex x => x | Tint z => tag_text z end.
Lemma filter_flat_map {A} (g : A -> list Z) (h : A -> list Z) l P : (forall a, In a l -> filter P (g a) = h a) -> filter P (flat_map g l) = flat_map h l.
Proof.
  induction l as [|a l IH]; cbn; auto. intros H. rewrite filter_app, H by auto. f_equal. auto.
Qed.
Lemma filter_hex l : digits 256 l -> filter (fun c => negb (c =? 10)) (hex_text l) = hex_text l.
Proof.
  induction 1 as [|b l Hb _ IH]; [reflexivity|]. pose proof (hex2_range b Hb) as [B1 B2].
  change (hex_text (b :: l)) with (hex2 b ++ hex_text l). rewrite filter_app, IH. f_equal. unfold hex2, hex_digit. cbn [filter].
  destruct (b / 16 <? 10), (b mod 16 <? 10);
    repeat match goal with |- context [?x =? 10] => destruct (Z.eqb_spec x 10); [lia|cbn [negb]] end; reflexivity.
Qed.
Lemma filter_fp l : digits 256 l -> filter (fun c => negb (c =? 10)) (fp_text l) = fp_text l.
Proof. intros D. unfold fp_text. rewrite filter_app, filter_hex by now apply digits_rev. reflexivity. Qed.
Lemma filter_fp2 K v : wf_fp2 K v -> filter (fun c => negb (c =? 10)) (fp2_text K v) = concat (map token_text (fp2_tokens K v)).
Proof.
  intros W. apply wf_fp2_parts in W as ([_ D1] & [_ D2] & _). unfold fp2_text. rewrite !filter_app, !filter_fp by auto.
  unfold fp2_tokens. cbn [map token_text concat filter Z.eqb Pos.eqb negb app]. now rewrite app_nil_r.
Qed.
Lemma concat_map_flat {A B C} (g : B -> list C) (h : A -> list B) l : concat (map g (flat_map h l)) = flat_map (fun a => concat (map g (h a))) l.
Proof. induction l as [|a l IH]; cbn; auto. now rewrite map_app, concat_app, IH. Qed.
Lemma filter_chain K f n r o : wf_response K r -> (o + n * sidh_bytes K <= union_size K)%nat ->
  (forall i, f i = slice (o + i * sidh_bytes K) (sidh_bytes K) (r_mem r)) ->
  filter (fun c => negb (c =? 10)) (flat_map (fun i => fp2_text K (f i)) (seq 0 n)) =
  concat (map token_text (flat_map (fun i => fp2_tokens K (f i)) (seq 0 n))).
Proof.
  intros W Ho Hf. rewrite concat_map_flat. apply filter_flat_map. intros i Hi.
  pose proof (wf_chunks K r o n f W Ho Hf) as F. rewrite Forall_forall in F. apply filter_fp2, F, in_map_iff. eauto.
Qed.
Lemma filter_response K r : wf_response K r -> legal_tag (r_tag r) ->
  filter (fun c => negb (c =? 10)) (response_text K r) = concat (map token_text (response_tokens K r)).
Proof.
  intros W T. pose proof (union_ge K _ T) as U. unfold response_text, response_tokens, active_size in *.
  destruct T as [E|[E|E]]; rewrite E in *; cbn [Z.eqb Pos.eqb] in *; rewrite !filter_app;
    cbn [map token_text concat filter Z.eqb Pos.eqb negb app tag_text Z.add Pos.add];
    rewrite ?filter_hex by (apply slice_digits, W).
  - rewrite (filter_chain K (left_x K r) (height K) r (hide_bytes K + hash_bytes K)); auto.
  - rewrite filter_fp2 by (apply (wf_slice K); auto; lia). rewrite map_app, concat_app.
    rewrite (filter_chain K (bottom_x K r) (width K) r (hide_bytes K + hide_bytes K + sidh_bytes K)); auto.
  - rewrite (filter_chain K (right_x K r) (height K) r (hash_bytes K + hide_bytes K)); auto. lia.
Qed.
Lemma dump_tokens K p : wf_proof K p -> legal_tags p ->
  filter (fun c => negb (c =? 10)) (proof_text K p) = concat (map token_text (proof_tokens K p)).
Proof.
  intros (W0 & W1 & _ & W) T. unfold proof_text, proof_tokens. rewrite !filter_app, !filter_fp2 by auto.
  rewrite !map_app, !concat_app. do 2 f_equal. rewrite concat_map_flat. apply filter_flat_map. intros r Hr.
  unfold legal_tags in T. rewrite Forall_forall in W, T. apply filter_response; auto.
Qed.

(** ** Failing writes *)
Definition runs (w : oracle -> stream -> bool * stream) (n : nat) (txt : list Z) : Prop := forall o s,
  (forall i, (s_calls s <= i < s_calls s + n)%nat -> o i = None) ->
  w o s = (true, mkStream (s_out s ++ txt) (s_calls s + n)).
Lemma fwrite_ok o txt s : o (s_calls s) = None ->
  fwrite o txt s = (Z.of_nat (length txt), mkStream (s_out s ++ txt) (s_calls s + 1)).
Proof. intros H. unfold fwrite. rewrite H. now rewrite Nat.add_1_r. Qed.
Lemma runs_then w1 w2 n1 n2 t1 t2 : runs w1 n1 t1 -> runs w2 n2 t2 ->
  runs (fun o s => let (ok, s) := w1 o s in if negb ok then (false, s) else w2 o s) (n1 + n2) (t1 ++ t2).
Proof.
  intros H1 H2 o s Ho. rewrite H1 by (intros; apply Ho; lia). cbn [negb]. rewrite H2; cbn [s_calls s_out].
  - now rewrite app_assoc, Nat.add_assoc.
  - intros i Hi. apply Ho. lia.
Qed.
Lemma runs_hex l : runs (fun o => dump_hex o l) (length l) (hex_text l).
Proof.
  induction l as [|b l IH]; intros o s Ho; [cbn; rewrite app_nil_r, Nat.add_0_r; now destruct s|].
  cbn [dump_hex]. rewrite fwrite_ok by (apply Ho; cbn; lia). cbn [length hex2 Z.of_nat Pos.of_succ_nat Pos.succ Z.eqb Pos.eqb negb].
  rewrite IH; cbn [s_calls s_out]; [|intros i Hi; apply Ho; cbn; lia].
  f_equal. f_equal; [|cbn; lia]. rewrite <- app_assoc. reflexivity.
Qed.
Lemma runs_char c : runs (fun o => dump_char o c) 1 [c].
Proof. intros o s Ho. unfold dump_char. rewrite fwrite_ok by (apply Ho; lia). reflexivity. Qed.
Lemma runs_packed v : runs (fun o => dump_packed_fp o v) (1 + length v) (fp_text v).
Proof.
  intros o s Ho. unfold dump_packed_fp. rewrite fwrite_ok by (apply Ho; lia). cbn [length Z.of_nat Pos.of_succ_nat Pos.succ Z.eqb Pos.eqb negb].
  rewrite runs_hex; cbn [s_calls s_out]; [|intros i Hi; rewrite rev_length in Hi; apply Ho; lia].
  rewrite rev_length. unfold fp_text. now rewrite <- app_assoc, <- Nat.add_assoc.
Qed.
Lemma runs_fp2 K v : exists n, runs (fun o => Dump_Fp2 K o v) n (fp2_text K v).
Proof.
  eexists. refine (runs_then _ _ _ _ _ _ (runs_packed (fp2_real K v)) _).
  refine (runs_then _ _ _ _ _ _ (runs_char 44) _).
  exact (runs_then _ _ _ _ _ _ (runs_packed (fp2_imag K v)) (runs_char 10)).
Qed.
Lemma runs_bytes l : exists n, runs (fun o => Dump_Bytes o l) n (hex_text l ++ [10]).
Proof. eexists. exact (runs_then _ _ _ _ _ _ (runs_hex l) (runs_char 10)). Qed.
Lemma runs_cons w1 (w2 : oracle -> list (stream -> bool * stream)) t1 t2 : (exists n, runs w1 n t1) ->
  (exists n, runs (fun o => dump_seq (w2 o)) n t2) -> exists n, runs (fun o => dump_seq (w1 o :: w2 o)) n (t1 ++ t2).
Proof. intros [n1 H1] [n2 H2]. exists (n1 + n2)%nat. exact (runs_then _ _ _ _ _ _ H1 H2). Qed.
Lemma runs_map {A} (f : oracle -> A -> stream -> bool * stream) (t : A -> list Z) l :
  (forall a, exists n, runs (fun o => f o a) n (t a)) -> exists n, runs (fun o => dump_seq (map (f o) l)) n (flat_map t l).
Proof.
  intros H. induction l as [|a l IH].
  - exists 0%nat. intros o s _. cbn. rewrite app_nil_r, Nat.add_0_r. now destruct s.
  - apply (runs_cons (fun o => f o a) (fun o => map (f o) l)); auto.
Qed.
Lemma response_runs K r : legal_tag (r_tag r) -> exists n, forall o s,
  (forall i, (s_calls s < i < s_calls s + 1 + n)%nat -> o i = None) ->
  dump_response K o r s = Ok (true, mkStream (s_out (snd (fwrite o (tag_text (r_tag r) ++ [10]) s)) ++ response_body K r) (s_calls s + 1 + n)).
Proof.
  intros T.
  assert (W : exists w n, runs w n (response_body K r) /\ forall o s, dump_response K o r s = Ok (w o (snd (fwrite o (tag_text (r_tag r) ++ [10]) s)))).
  { unfold dump_response. rewrite dec_tag by auto. unfold response_body, RESP_LEFT, RESP_BOTTOM, RESP_RIGHT.
    destruct T as [-> | [-> | ->]]; cbn [Z.eqb Pos.eqb]; rewrite !(app_assoc (hex_text _) [10]).
    - eexists (fun o => _).
      enough (R : exists n, runs (fun o => dump_seq (Dump_Bytes o (left_r2 K r) :: Dump_Bytes o (left_h3 K r) ::
        map (fun i => Dump_Fp2 K o (left_x K r i)) (seq 0 (height K)))) n ((hex_text (left_r2 K r) ++ [10]) ++
        (hex_text (left_h3 K r) ++ [10]) ++ flat_map (fun i => fp2_text K (left_x K r i)) (seq 0 (height K)))).
      { destruct R as [n R]. exists n. split; [exact R|]. intros o s. now destruct (fwrite _ _ _). }
      apply (runs_cons (fun o => Dump_Bytes o (left_r2 K r))); [apply runs_bytes|].
      apply (runs_cons (fun o => Dump_Bytes o (left_h3 K r))); [apply runs_bytes|].
      apply (runs_map (fun o i => Dump_Fp2 K o (left_x K r i))). intros. apply runs_fp2.
    - eexists (fun o => _).
      enough (R : exists n, runs (fun o => dump_seq (Dump_Bytes o (bottom_r2 K r) :: Dump_Bytes o (bottom_r3 K r) :: Dump_Fp2 K o (bottom_E2 K r) ::
        map (fun i => Dump_Fp2 K o (bottom_x K r i)) (seq 0 (width K)))) n ((hex_text (bottom_r2 K r) ++ [10]) ++
        (hex_text (bottom_r3 K r) ++ [10]) ++ fp2_text K (bottom_E2 K r) ++ flat_map (fun i => fp2_text K (bottom_x K r i)) (seq 0 (width K)))).
      { destruct R as [n R]. exists n. split; [exact R|]. intros o s. now destruct (fwrite _ _ _). }
      apply (runs_cons (fun o => Dump_Bytes o (bottom_r2 K r))); [apply runs_bytes|].
      apply (runs_cons (fun o => Dump_Bytes o (bottom_r3 K r))); [apply runs_bytes|].
      apply (runs_cons (fun o => Dump_Fp2 K o (bottom_E2 K r))); [apply runs_fp2|].
      apply (runs_map (fun o i => Dump_Fp2 K o (bottom_x K r i))). intros. apply runs_fp2.
    - eexists (fun o => _).
      enough (R : exists n, runs (fun o => dump_seq (Dump_Bytes o (right_h2 K r) :: Dump_Bytes o (right_r3 K r) ::
        map (fun i => Dump_Fp2 K o (right_x K r i)) (seq 0 (height K)))) n ((hex_text (right_h2 K r) ++ [10]) ++
        (hex_text (right_r3 K r) ++ [10]) ++ flat_map (fun i => fp2_text K (right_x K r i)) (seq 0 (height K)))).
      { destruct R as [n R]. exists n. split; [exact R|]. intros o s. now destruct (fwrite _ _ _). }
      apply (runs_cons (fun o => Dump_Bytes o (right_h2 K r))); [apply runs_bytes|].
      apply (runs_cons (fun o => Dump_Bytes o (right_r3 K r))); [apply runs_bytes|].
      apply (runs_map (fun o i => Dump_Fp2 K o (right_x K r i))). intros. apply runs_fp2. }
  destruct W as (w & n & R & E). exists n. intros o s Ho. rewrite E.
  assert (C : s_calls (snd (fwrite o (tag_text (r_tag r) ++ [10]) s)) = (s_calls s + 1)%nat)
    by (unfold fwrite; destruct (o (s_calls s)); cbn; lia).
  rewrite R; [now rewrite C|]. intros i Hi. apply Ho. lia.
Qed.
Lemma response_runs_ok K o l : Forall (fun r => legal_tag (r_tag r)) l -> forall s, (forall i, (s_calls s <= i)%nat -> o i = None) ->
  exists s', dump_responses K o l s = Ok (true, s') /\ s_out s' = s_out s ++ flat_map (response_text K) l.
Proof.
  induction 1 as [|r l T _ IH]; intros s Ho; [exists s; cbn; now rewrite app_nil_r|]. cbn [dump_responses].
  destruct (response_runs K r T) as [n R]. rewrite R by (intros; apply Ho; lia). cbn [bind negb].
  edestruct IH as (s' & E & O); [|rewrite E; eexists; split; [reflexivity|]].
  - intros i Hi. cbn [s_calls] in Hi. apply Ho. lia.
  - rewrite O. cbn [s_out flat_map]. rewrite fwrite_ok by (apply Ho; lia). cbn [snd s_out]. unfold response_text at 2.
    fold (response_body K r). now rewrite <- !app_assoc.
Qed.
Lemma dump_lies K p : legal_tags p -> p_resp p <> [] ->
  exists bad s, Dump K (fun i => if (i =? bad)%nat then Some 0%nat else None) p (mkStream [] 0) = Ok (true, s) /\
    length (s_out s) <> length (proof_text K p).
Proof.
  intros T N. destruct (runs_fp2 K (p_E0 p)) as [n0 R0]. destruct (runs_fp2 K (p_E1 p)) as [n1 R1].
  set (bad := (n0 + n1)%nat). exists bad. set (o := fun i : nat => if (i =? bad)%nat then Some 0%nat else None). unfold Dump. cbn [dump_seq].
  rewrite R0; [|intros i Hi; cbn in Hi; subst o; cbn; destruct (Nat.eqb_spec i bad); auto; lia]. cbn [negb].
  rewrite R1; [|intros i Hi; cbn in Hi; subst o; cbn; destruct (Nat.eqb_spec i bad); auto; lia]. cbn [negb s_out s_calls app Nat.add].
  unfold legal_tags in T. unfold proof_text. destruct (p_resp p) as [|r l]; [now elim N|]. inversion T as [|? ? Tr Tl]; subst.
  cbn [dump_responses]. destruct (response_runs K r Tr) as [n R]. rewrite R; cbn [s_calls].
  2:{ intros i Hi. subst o. cbn. destruct (Nat.eqb_spec i bad); auto. lia. }
  cbn [bind negb]. edestruct (response_runs_ok K o l Tl) as (s' & E & O); [|exists s'; rewrite E; split; [reflexivity|]].
  { intros i Hi. cbn [s_calls] in Hi. subst o. cbn. destruct (Nat.eqb_spec i bad); auto. lia. }
  rewrite O. cbn [s_out]. assert (F : snd (fwrite o (tag_text (r_tag r) ++ [10]) (mkStream (fp2_text K (p_E0 p) ++ fp2_text K (p_E1 p)) (n0 + n1)))
    = mkStream ((fp2_text K (p_E0 p) ++ fp2_text K (p_E1 p)) ++ []) (S (n0 + n1))).
  { unfold fwrite. cbn [s_calls s_out]. subst o. cbv beta. fold bad. now rewrite Nat.eqb_refl. }
  rewrite F. cbn [s_out flat_map]. unfold response_text at 2. fold (response_body K r). rewrite !app_length. cbn [length]. lia.
Qed.
