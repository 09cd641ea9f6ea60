(** Main lemmas on Dump and Parse (proofs only). *)
From Verif Require Import Base BaseP Out Params Poik Codec CodecSpec CodecP ParseP LayoutP.

(** ** Contents of the active member *)
Lemma firstn_slice n l : slice 0 n l = firstn n l.
Proof. reflexivity. Qed.
Lemma slice_app_l o m a b : (o + m <= length a)%nat -> slice o m (a ++ b) = slice o m a.
Proof.
  intros H. unfold slice. rewrite skipn_app, firstn_app, skipn_length.
  replace (m - (length a - o))%nat with 0%nat by lia. cbn [firstn]. apply app_nil_r.
Qed.
Lemma slice_slice o m n l : (o + m <= n)%nat -> slice o m (slice 0 n l) = slice o m l.
Proof.
  intros H. unfold slice at 2. cbn [skipn]. unfold slice. rewrite skipn_firstn_comm, firstn_firstn. f_equal. lia.
Qed.
Lemma slice_overwrite o m n l l0 : (o + m <= n)%nat -> (n <= length l)%nat ->
  slice o m (overwrite (slice 0 n l) l0) = slice o m l.
Proof.
  intros H1 H2. unfold overwrite. rewrite slice_app_l by (rewrite slice_length; lia). now apply slice_slice.
Qed.
Lemma overwrite_length d l : (length d <= length l)%nat -> length (overwrite d l) = length l.
Proof. intros H. unfold overwrite. rewrite app_length, skipn_length. lia. Qed.
Lemma digits_skipn B n l : digits B l -> digits B (skipn n l).
Proof. intros H. rewrite <- (firstn_skipn n l) in H. now apply Forall_app in H. Qed.
Lemma overwrite_digits B d l : digits B d -> digits B l -> digits B (overwrite d l).
Proof. intros H1 H2. apply Forall_app. split; [exact H1|now apply digits_skipn]. Qed.
Lemma overwrite_slice d l n : length d = n -> slice 0 n (overwrite d l) = d.
Proof. intros <-. rewrite firstn_slice. unfold overwrite. rewrite firstn_app, firstn_all, Nat.sub_diag. apply app_nil_r. Qed.
Lemma chunk_le i n s o : (i < n)%nat -> (o + i * s + s <= o + n * s)%nat.
Proof. nia. Qed.

Lemma parsed_from_same K r0 r : wf_response K r -> legal_tag (r_tag r) -> same_response K r (parsed_from K r0 r).
Proof.
  intros [L D] T. pose proof (union_ge K _ T) as U. unfold same_response, parsed_from. cbn [r_tag]. split; [reflexivity|].
  assert (S : forall o m, (o + m <= active_size K (r_tag r))%nat ->
    slice o m (r_mem r) = slice o m (overwrite (slice 0 (active_size K (r_tag r)) (r_mem r)) (r_mem r0)))
    by (intros o m H; rewrite slice_overwrite; auto; lia).
  unfold active_size in S. destruct T as [T|[T|T]]; rewrite T in *; cbn [Z.eqb Pos.eqb] in S;
    unfold left_r2, left_h3, left_x, bottom_r2, bottom_r3, bottom_E2, bottom_x, right_h2, right_r3, right_x; cbn [r_mem].
  - split; [apply S; lia|]. split; [apply S; lia|]. intros i Hi. apply S.
    pose proof (chunk_le i (height K) (sidh_bytes K) (hide_bytes K + hash_bytes K) Hi). lia.
  - split; [apply S; lia|]. split; [apply S; lia|]. split; [apply S; lia|]. intros i Hi. apply S.
    pose proof (chunk_le i (width K) (sidh_bytes K) (hide_bytes K + hide_bytes K + sidh_bytes K) Hi). lia.
  - split; [apply S; lia|]. split; [apply S; lia|]. intros i Hi. apply S.
    pose proof (chunk_le i (height K) (sidh_bytes K) (hash_bytes K + hide_bytes K) Hi). lia.
Qed.
Lemma parsed_from_wf K r0 r : wf_response K r0 -> wf_response K r -> legal_tag (r_tag r) -> wf_response K (parsed_from K r0 r).
Proof.
  intros [L0 D0] [L D] T. pose proof (union_ge K _ T) as U. split; cbn [r_mem parsed_from].
  - rewrite overwrite_length; auto. rewrite slice_length; lia.
  - apply overwrite_digits; auto. now apply slice_digits.
Qed.
Lemma same_response_tokens K r s : same_response K r s -> response_tokens K r = response_tokens K s.
Proof.
  intros [T H]. unfold response_tokens. rewrite <- T.
  destruct (Z.eqb_spec (r_tag r) (-1)) as [E|E]; [rewrite E in H; cbv beta iota in H|].
  { destruct H as (-> & -> & H). f_equal. f_equal. f_equal. rewrite !flat_map_concat_map. f_equal. apply map_ext_in.
    intros i Hi%in_seq. rewrite H; auto. lia. }
  destruct (Z.eqb_spec (r_tag r) 0) as [E0|E0]; [rewrite E0 in H; cbv beta iota in H|].
  { destruct H as (-> & -> & -> & H). do 4 f_equal. rewrite !flat_map_concat_map. f_equal. apply map_ext_in.
    intros i Hi%in_seq. rewrite H; auto. lia. }
  destruct (Z.eq_dec (r_tag r) 1) as [E1|E1]; [rewrite E1 in H; cbv beta iota in H|].
  { destruct H as (-> & -> & H). f_equal. f_equal. f_equal. rewrite !flat_map_concat_map. f_equal. apply map_ext_in.
    intros i Hi%in_seq. rewrite H; auto. lia. }
  exfalso. destruct (r_tag r) as [|[| |]|[| |]]; try contradiction; lia.
Qed.

(** ** From grammar values to tokens *)
Lemma chain_from pre vs tl n m K f : length pre = n -> m = sidh_bytes K -> Forall (wf_fp2 K) vs ->
  (forall i, f i = slice (n + i * m) m (pre ++ concat vs ++ tl)) ->
  flat_map (fp2_tokens K) vs = flat_map (fun i => fp2_tokens K (f i)) (seq 0 (length vs)).
Proof.
  intros Hn -> W Hf. rewrite (flat_map_map' (fp2_tokens K) f). f_equal. symmetry.
  apply (chunks_of pre vs tl n (sidh_bytes K)); auto. eapply Forall_impl; [|exact W]. now intros v [].
Qed.
Lemma digits_concat K vs : Forall (wf_fp2 K) vs -> digits 256 (concat vs).
Proof. induction 1 as [|v vs [_ D] _ IH]; [constructor|]. cbn. apply Forall_app. auto. Qed.
Lemma concat_len K vs : Forall (wf_fp2 K) vs -> length (concat vs) = (length vs * sidh_bytes K)%nat.
Proof. intros W. apply concat_length_const. eapply Forall_impl; [|exact W]. now intros v []. Qed.
Lemma Rresp_inv K r0 r ts : wf_response K r0 -> Rresp K r0 r ts ->
  wf_response K r /\ legal_tag (r_tag r) /\ ts = response_tokens K r /\ parsed_from K r0 r = r.
Proof.
  intros [L0 D0] (tag & _ & [(-> & r2 & h3 & x & ts' & L2 & D2 & L3 & D3 & (vs & Lv & Wv & -> & ->) & -> & ->)|
      [(-> & r2 & r3 & e & x & ts' & L2 & D2 & L3 & D3 & We & (vs & Lv & Wv & -> & ->) & -> & ->)|
       (-> & h2 & r3 & x & ts' & L2 & D2 & L3 & D3 & (vs & Lv & Wv & -> & ->) & -> & ->)]]);
    pose proof (concat_len K vs Wv) as Lc; pose proof (digits_concat K vs Wv) as Dc.
  - set (d := r2 ++ h3 ++ concat vs).
    assert (Ld : length d = active_size K (-1)) by (subst d; rewrite !app_length, Lc; unfold active_size; cbn [Z.eqb]; lia).
    pose proof (union_ge K (-1) ltac:(left; auto)) as U. rewrite <- Ld, <- L0 in U.
    assert (Dd : digits 256 d) by (repeat (apply Forall_app; split; auto)).
    split; [split; cbn [r_mem]; [rewrite overwrite_length; auto|now apply overwrite_digits]|].
    split; [left; auto|]. split.
    + unfold response_tokens. cbn [r_tag Z.eqb Pos.eqb]. unfold left_r2, left_h3, left_x. cbn [r_mem].
      unfold overwrite. subst d. repeat f_equal.
      * rewrite <- app_assoc. symmetry. now apply (slice_at []).
      * rewrite <- !app_assoc. symmetry. now apply slice_at.
      * rewrite <- Lv. apply (chain_from (r2 ++ h3) vs (skipn (length (r2 ++ h3 ++ concat vs)) (r_mem r0)) (hide_bytes K + hash_bytes K) (sidh_bytes K)); auto.
        -- rewrite app_length. lia.
        -- intros i. now rewrite <- !app_assoc.
    + unfold parsed_from. cbn [r_tag r_mem]. rewrite (overwrite_slice d) by auto. reflexivity.
  - destruct We as [Le De]. set (d := r2 ++ r3 ++ e ++ concat vs).
    assert (Ld : length d = active_size K 0) by (subst d; rewrite !app_length, Lc; unfold active_size; cbn [Z.eqb]; lia).
    pose proof (union_ge K 0 ltac:(right; left; auto)) as U. rewrite <- Ld, <- L0 in U.
    assert (Dd : digits 256 d) by (repeat (apply Forall_app; split; auto)).
    split; [split; cbn [r_mem]; [rewrite overwrite_length; auto|now apply overwrite_digits]|].
    split; [right; left; auto|]. split.
    + unfold response_tokens. cbn [r_tag Z.eqb Pos.eqb]. unfold bottom_r2, bottom_r3, bottom_E2, bottom_x. cbn [r_mem].
      unfold overwrite. subst d. repeat f_equal.
      * rewrite <- app_assoc. symmetry. now apply (slice_at []).
      * rewrite <- !app_assoc. symmetry. now apply slice_at.
      * rewrite <- !app_assoc. rewrite (app_assoc r2). symmetry. apply slice_at; auto. rewrite app_length. lia.
      * rewrite <- Lv. apply (chain_from (r2 ++ r3 ++ e) vs (skipn (length (r2 ++ r3 ++ e ++ concat vs)) (r_mem r0)) (hide_bytes K + hide_bytes K + sidh_bytes K) (sidh_bytes K)); auto.
        -- rewrite !app_length. lia.
        -- intros i. now rewrite <- !app_assoc.
    + unfold parsed_from. cbn [r_tag r_mem]. rewrite (overwrite_slice d) by auto. reflexivity.
  - set (d := h2 ++ r3 ++ concat vs).
    assert (Ld : length d = active_size K 1) by (subst d; rewrite !app_length, Lc; unfold active_size; cbn [Z.eqb]; lia).
    pose proof (union_ge K 1 ltac:(right; right; auto)) as U. rewrite <- Ld, <- L0 in U.
    assert (Dd : digits 256 d) by (repeat (apply Forall_app; split; auto)).
    split; [split; cbn [r_mem]; [rewrite overwrite_length; auto|now apply overwrite_digits]|].
    split; [right; right; auto|]. split.
    + unfold response_tokens. cbn [r_tag Z.eqb Pos.eqb]. unfold right_h2, right_r3, right_x. cbn [r_mem].
      unfold overwrite. subst d. repeat f_equal.
      * rewrite <- app_assoc. symmetry. now apply (slice_at []).
      * rewrite <- !app_assoc. symmetry. now apply slice_at.
      * rewrite <- Lv. apply (chain_from (h2 ++ r3) vs (skipn (length (h2 ++ r3 ++ concat vs)) (r_mem r0)) (hash_bytes K + hide_bytes K) (sidh_bytes K)); auto.
        -- rewrite app_length. lia.
        -- intros i. now rewrite <- !app_assoc.
    + unfold parsed_from. cbn [r_tag r_mem]. rewrite (overwrite_slice d) by auto. reflexivity.
Qed.
Lemma Rresp_intro K r0 r : wf_response K r -> legal_tag (r_tag r) -> Rresp K r0 (parsed_from K r0 r) (response_tokens K r).
Proof.
  intros W T. pose proof (union_ge K _ T) as U. unfold Rresp, parsed_from, response_tokens. exists (r_tag r).
  split; [unfold int_range; destruct T as [-> | [-> | ->]]; lia|].
  assert (C : forall o n f, (o + n * sidh_bytes K <= union_size K)%nat ->
    (forall i, f i = slice (o + i * sidh_bytes K) (sidh_bytes K) (r_mem r)) ->
    Rchain K n (concat (map f (seq 0 n))) (flat_map (fun i => fp2_tokens K (f i)) (seq 0 n))).
  { intros o n f Ho Hf. exists (map f (seq 0 n)). rewrite map_length, seq_length. split; auto. split; [now apply (wf_chunks K r o n f)|].
    split; auto. now rewrite (flat_map_map' (fp2_tokens K) f). }
  unfold active_size in *. destruct T as [T|[T|T]]; rewrite T in *; cbn [Z.eqb Pos.eqb] in *; [left|right; left|right; right]; (split; [reflexivity|]).
  - destruct (wf_slice K r 0 (hide_bytes K)) as [L1 D1]; [auto|lia|].
    destruct (wf_slice K r (hide_bytes K) (hash_bytes K)) as [L2 D2]; [auto|lia|].
    exists (left_r2 K r), (left_h3 K r). eexists _, _.
    split; [exact L1|]. split; [exact D1|]. split; [exact L2|]. split; [exact D2|].
    split; [apply (C (hide_bytes K + hash_bytes K)%nat (height K) (left_x K r)); auto; lia|].
    split; [|reflexivity]. do 2 f_equal. unfold left_x. rewrite concat_chunks. unfold left_r2, left_h3.
    rewrite slice_cat, slice_cat. f_equal. lia.
  - destruct (wf_slice K r 0 (hide_bytes K)) as [L1 D1]; [auto|lia|].
    destruct (wf_slice K r (hide_bytes K) (hide_bytes K)) as [L2 D2]; [auto|lia|].
    exists (bottom_r2 K r), (bottom_r3 K r), (bottom_E2 K r). eexists _, _.
    split; [exact L1|]. split; [exact D1|]. split; [exact L2|]. split; [exact D2|].
    split; [apply (wf_slice K); auto; lia|].
    split; [apply (C (hide_bytes K + hide_bytes K + sidh_bytes K)%nat (width K) (bottom_x K r)); auto|].
    split; [|reflexivity]. do 2 f_equal. unfold bottom_x. rewrite concat_chunks. unfold bottom_r2, bottom_r3, bottom_E2.
    rewrite slice_cat, slice_cat, slice_cat. f_equal. lia.
  - destruct (wf_slice K r 0 (hash_bytes K)) as [L1 D1]; [auto|lia|].
    destruct (wf_slice K r (hash_bytes K) (hide_bytes K)) as [L2 D2]; [auto|lia|].
    exists (right_h2 K r), (right_r3 K r). eexists _, _.
    split; [exact L1|]. split; [exact D1|]. split; [exact L2|]. split; [exact D2|].
    split; [apply (C (hash_bytes K + hide_bytes K)%nat (height K) (right_x K r)); auto; lia|].
    split; [|reflexivity]. do 2 f_equal. unfold right_x. rewrite concat_chunks. unfold right_h2, right_r3.
    rewrite slice_cat, slice_cat. f_equal. lia.
Qed.

(** ** Whole proofs *)
Fixpoint Rresps (K : pok) (l0 l : list response) (ts : list token) : Prop :=
  match l0 with
  | [] => l = [] /\ ts = []
  | r0 :: l0 => exists r l' t1 t2, Rresp K r0 r t1 /\ Rresps K l0 l' t2 /\ l = r :: l' /\ ts = t1 ++ t2
  end.
Lemma responses_gram K l0 : positive_sizes K -> gram (parse_responses K l0) (Rresps K l0).
Proof.
  intros P. induction l0 as [|r0 l0 IH]; cbn [parse_responses Rresps]; [apply gram_pret|].
  eapply gram_ext.
  { apply gram_bind; [now apply response_gram|]. intros r. apply gram_bind; [exact IH|]. intros l'. apply gram_pret. }
  intros l ts. split.
  - intros (r & t1 & ? & R1 & (l' & t2 & ? & R2 & (-> & ->) & ->) & ->). exists r, l', t1, t2. rewrite app_nil_r. auto.
  - intros (r & l' & t1 & t2 & R1 & R2 & -> & ->). exists r, t1, t2. split; auto. split; auto. exists l', t2, [].
    rewrite app_nil_r. auto.
Qed.
Lemma Rresps_inv K l0 : Forall (wf_response K) l0 -> forall l ts, Rresps K l0 l ts ->
  length l = length l0 /\ Forall (wf_response K) l /\ Forall (fun r => legal_tag (r_tag r)) l /\ ts = flat_map (response_tokens K) l /\
  map (fun x => parsed_from K (fst x) (snd x)) (combine l0 l) = l.
Proof.
  induction 1 as [|r0 l0 W0 _ IH]; cbn [Rresps]; intros l ts.
  - intros [-> ->]. repeat split; auto.
  - intros (r & l' & t1 & t2 & R1 & R2 & -> & ->). apply Rresp_inv in R1 as (W & T & -> & P); auto.
    apply IH in R2 as (L & Wl & Tl & -> & Pl). cbn [length map combine fst snd flat_map]. rewrite L, P, Pl. repeat split; auto.
Qed.
Lemma Rresps_intro K l0 : forall l, length l0 = length l -> Forall (wf_response K) l ->
  Forall (fun r => legal_tag (r_tag r)) l ->
  Rresps K l0 (map (fun x => parsed_from K (fst x) (snd x)) (combine l0 l)) (flat_map (response_tokens K) l).
Proof.
  induction l0 as [|r0 l0 IH]; intros [|r l] L W T; try discriminate; [cbn; auto|].
  cbn [Rresps combine map flat_map fst snd]. inversion W; inversion T; subst. injection L as L.
  eexists _, _, _, _. split; [apply Rresp_intro; eassumption|]. split; [apply IH; eassumption|]. auto.
Qed.
Definition Rproof (K : pok) (p0 p : proof) (ts : list token) : Prop :=
  wf_fp2 K (p_E0 p) /\ wf_fp2 K (p_E1 p) /\ exists ts', Rresps K (p_resp p0) (p_resp p) ts' /\
  ts = fp2_tokens K (p_E0 p) ++ fp2_tokens K (p_E1 p) ++ ts'.
Lemma Parse_gram K p0 : positive_sizes K -> gram (Parse K p0) (Rproof K p0).
Proof.
  intros P. unfold Parse. eapply gram_ext.
  { apply gram_bind; [apply Parse_Fp2_gram|]. intros e0. apply gram_bind; [apply Parse_Fp2_gram|]. intros e1.
    apply gram_bind; [exact (responses_gram K (p_resp p0) P)|]. intros rs. apply gram_pret. }
  intros p ts. split.
  - intros (e0 & ? & ? & (W0 & ->) & (e1 & ? & ? & (W1 & ->) & (rs & ts' & ? & R & (-> & ->) & ->) & ->) & ->).
    unfold Rproof. cbn [p_E0 p_E1 p_resp]. rewrite app_nil_r. split; auto. split; auto. eauto.
  - intros (W0 & W1 & ts' & R & ->). exists (p_E0 p), (fp2_tokens K (p_E0 p)), (fp2_tokens K (p_E1 p) ++ ts').
    split; [split; auto|]. split; auto. exists (p_E1 p), (fp2_tokens K (p_E1 p)), ts'. split; [split; auto|]. split; auto.
    exists (p_resp p), ts', []. rewrite app_nil_r. split; auto. split; auto. now destruct p.
Qed.
Lemma Parse_inv K p0 f p rest : positive_sizes K -> wf_proof K p0 -> Parse K p0 f = Ok (Some (p, rest)) ->
  wf_proof K p /\ legal_tags p /\ parsed_proof K p0 p = p /\
  exists w, f = w ++ rest /\ layout (proof_tokens K p) w rest.
Proof.
  intros P (_ & _ & N0 & W0) H. apply Parse_gram in H as (ts & w & (E0 & E1 & ts' & R & ->) & -> & L); auto.
  apply Rresps_inv in R as (N & W & T & -> & PP); auto. split; [|split; [|split]].
  - repeat split; try apply E0; try apply E1; auto. congruence.
  - exact T.
  - unfold parsed_proof. rewrite PP. now destruct p.
  - exists w. split; auto.
Qed.
Lemma Parse_complete K p0 p w rest : positive_sizes K -> length (p_resp p0) = reps K -> wf_proof K p -> legal_tags p ->
  layout (proof_tokens K p) w rest -> Parse K p0 (w ++ rest) = Ok (Some (parsed_proof K p0 p, rest)).
Proof.
  intros P N0 (W0 & W1 & N & W) T L. apply Parse_gram; auto. exists (proof_tokens K p), w. split; [|auto].
  split; [exact W0|]. split; [exact W1|]. exists (flat_map (response_tokens K) (p_resp p)). split; [|reflexivity].
  cbn [p_resp parsed_proof]. apply Rresps_intro; auto. congruence.
Qed.
Lemma parsed_proof_same K p0 p : length (p_resp p0) = reps K -> wf_proof K p -> legal_tags p -> same_proof K p (parsed_proof K p0 p).
Proof.
  intros N0 (_ & _ & N & W) T. split; [reflexivity|]. split; [reflexivity|]. cbn [p_resp parsed_proof].
  rewrite <- N in N0. clear N. revert N0 W T. unfold legal_tags. generalize (p_resp p0) as l0, (p_resp p) as l.
  intros l0 l. revert l. induction l0 as [|r0 l0 IH]; intros [|r l] N0 W T; try discriminate; cbn; constructor;
    inversion W; inversion T; subst; auto using parsed_from_same.
Qed.
Lemma parsed_proof_wf K p0 p : wf_proof K p0 -> wf_proof K p -> legal_tags p -> wf_proof K (parsed_proof K p0 p).
Proof.
  intros (_ & _ & N0 & W0) (E0 & E1 & N & W) T. split; [exact E0|]. split; [exact E1|]. cbn [p_resp parsed_proof].
  split; [rewrite map_length, combine_length; lia|]. apply Forall_forall. intros x Hx.
  apply in_map_iff in Hx as ([r0 r] & <- & Hx). cbn [fst snd]. pose proof (in_combine_l _ _ _ _ Hx). pose proof (in_combine_r _ _ _ _ Hx).
  unfold legal_tags in T. rewrite Forall_forall in W0, W, T. apply parsed_from_wf; auto.
Qed.
Lemma same_proof_tokens K p q : same_proof K p q -> proof_tokens K p = proof_tokens K q.
Proof.
  intros (E0 & E1 & F). unfold proof_tokens. rewrite E0, E1. do 2 f_equal.
  induction F; [reflexivity|]. cbn [flat_map]. f_equal; auto. now apply same_response_tokens.
Qed.
Lemma same_refl K p : legal_tags p -> same_proof K p p.
Proof.
  intros T. repeat split. unfold legal_tags in T. induction T as [|r l T _ IH]; constructor; auto.
  split; [reflexivity|]. destruct T as [-> | [-> | ->]]; repeat split.
Qed.
Lemma same_response_sym K r s : same_response K r s -> same_response K s r.
Proof.
  intros [T H]. split; [auto|]. rewrite <- T. destruct (r_tag r) as [|[| |]|[| |]]; try contradiction; intuition auto; symmetry; auto.
Qed.
Lemma same_response_trans K r s t : same_response K r s -> same_response K s t -> same_response K r t.
Proof.
  intros [T H] [T' H']. split; [congruence|]. rewrite <- T in H'.
  destruct (r_tag r) as [|[| |]|[| |]]; try contradiction;
    repeat match goal with H : _ /\ _ |- _ => destruct H end; repeat split; try congruence;
    intros i Hi;
    repeat match goal with A : forall i, _ -> _ = _ |- _ => specialize (A i Hi) end; congruence.
Qed.
Lemma same_sym K p q : same_proof K p q -> same_proof K q p.
Proof. intros (E0 & E1 & F). repeat split; auto. induction F; constructor; auto using same_response_sym. Qed.
Lemma same_trans K p q r : same_proof K p q -> same_proof K q r -> same_proof K p r.
Proof.
  intros (E0 & E1 & F) (G0 & G1 & G). repeat split; try congruence. clear - F G. revert G. generalize (p_resp r) as l.
  induction F; intros m G; inversion G; subst; constructor; eauto using same_response_trans.
Qed.

(** ** Undefined behaviour of the parser *)
(** A text that contains a byte 128..254 or a decimal number of at least 2^31. *)
Definition risky (f : list Z) : Prop :=
  Exists (fun c => 128 <= c < 255) f \/
  exists a ds b, f = a ++ ds ++ b /\ forallb isdigit ds = true /\ 2 ^ 31 <= decimal ds.
Lemma risky_app a f : risky f -> risky (a ++ f).
Proof.
  intros [H|(x & ds & b & -> & H)]; [left; apply Exists_app; auto|]. right. exists (a ++ x), ds, b. now rewrite <- app_assoc.
Qed.
Definition safe {A} (p : parser A) : Prop := forall f,
  (exists v a f', p f = Ok (Some (v, f')) /\ f = a ++ f') \/ p f = Ok None \/ (p f = UB /\ risky f).
Lemma safe_bind {A B} (p : parser A) (q : A -> parser B) : safe p -> (forall a, safe (q a)) -> safe (pbind p q).
Proof.
  intros Hp Hq f. unfold pbind. destruct (Hp f) as [(v & a & f' & -> & ->)|[->|[-> R]]]; cbn [bind]; auto.
  destruct (Hq v f') as [(w & b & f'' & -> & ->)|[->|[-> R]]]; auto.
  - left. exists w, (a ++ b), f''. now rewrite <- app_assoc.
  - right. right. split; auto. now apply risky_app.
Qed.
Lemma safe_pret {A} (a : A) : safe (pret a).
Proof. intros f. left. exists a, [], f. auto. Qed.
Lemma safe_pfail {A} : safe (@pfail A).
Proof. intros f. right. left. auto. Qed.
Lemma isxdigit_cases c : isxdigit c = Ok true \/ isxdigit c = Ok false \/ (isxdigit c = UB /\ 128 <= c < 255).
Proof. unfold isxdigit. destruct (_ && _) eqn:E; [right; right; split; auto; lia|]. destruct (is_hex c); auto. Qed.
Lemma safe_hex_byte : safe parse_hex_byte.
Proof.
  intros f. unfold parse_hex_byte. destruct f as [|a [|b f]]; auto.
  destruct (isxdigit_cases a) as [->|[->|[-> R]]]; cbn [bind negb]; auto.
  - destruct (isxdigit_cases b) as [->|[->|[-> R]]]; cbn [bind negb]; auto.
    + left. eexists _, [a; b], f. eauto.
    + right. right. split; auto. left. right. now left.
  - right. right. split; auto. left. now left.
Qed.
Lemma safe_hex n : safe (parse_hex n).
Proof.
  induction n as [|n IH]; cbn [parse_hex]; [apply safe_pret|]. apply safe_bind; [apply safe_hex_byte|]. intros c.
  apply safe_bind; [exact IH|]. intros l. apply safe_pret.
Qed.
Lemma safe_ws {A} (p : parser A) : safe p -> safe (fun f => p (skip_ws f)).
Proof.
  intros H f. destruct (skip_ws_split f) as (ws & F & _). destruct (H (skip_ws f)) as [(v & a & f' & -> & E)|[->|[-> R]]]; auto.
  - left. exists v, (ws ++ a), f'. split; auto. rewrite F, E. now rewrite app_assoc.
  - right. right. split; auto. rewrite F. now apply risky_app.
Qed.
Lemma safe_0x : safe parse_0x.
Proof. intros f. unfold parse_0x. destruct f as [|a [|b f]]; auto. destruct (_ && _); auto. left. exists tt, [a; b], f. auto. Qed.
Lemma safe_packed n : safe (parse_packed_fp n).
Proof.
  apply safe_ws. apply safe_bind; [apply safe_0x|]. intros _. apply safe_bind; [apply safe_hex|]. intros l. apply safe_pret.
Qed.
Lemma safe_comma : safe parse_comma.
Proof.
  apply (safe_ws (fun f => match f with c :: f => if c =? 44 then Ok (Some (tt, f)) else Ok None | [] => Ok None end)).
  intros [|c f]; auto. destruct (c =? 44); auto. left. exists tt, [c], f. auto.
Qed.
Lemma safe_fp2 K : safe (Parse_Fp2 K).
Proof.
  apply safe_bind; [apply safe_packed|]. intros re. apply safe_bind; [apply safe_comma|]. intros _.
  apply safe_bind; [apply safe_packed|]. intros im. apply safe_pret.
Qed.
Lemma decimal_nonneg ds a : forallb isdigit ds = true -> 0 <= a -> 0 <= fold_left (fun a c => 10 * a + (c - 48)) ds a.
Proof.
  revert a. induction ds as [|d ds IH]; cbn [fold_left forallb]; intros a H Ha; auto. apply andb_prop in H as [H1 H2]. apply IH; auto.
  unfold isdigit in H1. lia.
Qed.
Lemma safe_int : safe scan_int.
Proof.
  apply (safe_ws (fun f => let (sg, f) := scan_sign f in match f with
    | c :: _ => if isdigit c then let (v, f) := scan_digits f 0 in let z := sg * v in
        if (- 2 ^ 31 <=? z) && (z <? 2 ^ 31) then Ok (Some (z, f)) else UB else Ok None | [] => Ok None end)).
  intros f. destruct (scan_sign_spec f) as (sign & sg & f' & -> & -> & Hs).
  destruct f' as [|c f']; auto. destruct (isdigit c); auto.
  destruct (scan_digits_spec (c :: f') 0) as (ds & r & -> & Hd & -> & _). cbv zeta.
  destruct (_ && _) eqn:B.
  - left. eexists _, (sign ++ ds), r. split; [reflexivity|]. now rewrite app_assoc.
  - right. right. split; auto. right. exists sign, ds, r. split; auto. split; auto. unfold decimal.
    pose proof (decimal_nonneg ds 0 Hd (Z.le_refl 0)) as N. change (2 ^ 31) with 2147483648 in *.
    destruct (Z.leb_spec (-2147483648) (sg * fold_left (fun a c => 10 * a + (c - 48)) ds 0));
    destruct (Z.ltb_spec (sg * fold_left (fun a c => 10 * a + (c - 48)) ds 0) 2147483648); try discriminate;
    destruct Hs as [[_ ->]|[[_ ->]|[_ ->]]]; lia.
Qed.
Lemma safe_chain K n : safe (parse_chain K n).
Proof.
  induction n as [|n IH]; cbn [parse_chain]; [apply safe_pret|]. apply safe_bind; [apply safe_fp2|]. intros v.
  apply safe_bind; [exact IH|]. intros l. apply safe_pret.
Qed.
Lemma safe_response K r : safe (parse_response K r).
Proof.
  apply safe_bind; [apply safe_int|]. intros tag. destruct (tag =? _); [|destruct (tag =? _); [|destruct (tag =? _)]];
  [| | |apply safe_pfail]; (apply safe_bind; [apply safe_ws, safe_hex|]; intros x1); (apply safe_bind; [apply safe_ws, safe_hex|]; intros x2).
  - apply safe_bind; [apply safe_chain|]. intros x. apply safe_pret.
  - apply safe_bind; [apply safe_fp2|]. intros e. apply safe_bind; [apply safe_chain|]. intros x. apply safe_pret.
  - apply safe_bind; [apply safe_chain|]. intros x. apply safe_pret.
Qed.
Lemma safe_responses K l : safe (parse_responses K l).
Proof.
  induction l as [|r l IH]; cbn [parse_responses]; [apply safe_pret|]. apply safe_bind; [apply safe_response|]. intros r'.
  apply safe_bind; [exact IH|]. intros l'. apply safe_pret.
Qed.
Lemma safe_Parse K p : safe (Parse K p).
Proof.
  apply safe_bind; [apply safe_fp2|]. intros e0. apply safe_bind; [apply safe_fp2|]. intros e1.
  apply safe_bind; [apply safe_responses|]. intros rs. apply safe_pret.
Qed.
