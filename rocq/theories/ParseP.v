(** Proofs about Parse. *)
From Verif Require Import Base BaseP Out Params Poik Codec CodecSpec CodecP.

(** ** Slices of a union *)
Lemma slice_at pre x tl n m : length pre = n -> length x = m -> slice n m (pre ++ x ++ tl) = x.
Proof.
  intros <- <-. unfold slice. rewrite skipn_app, skipn_all, Nat.sub_diag. cbn [skipn app].
  rewrite firstn_app, firstn_all, Nat.sub_diag. cbn [firstn]. apply app_nil_r.
Qed.
Lemma concat_length_const {A} m (vs : list (list A)) : Forall (fun v => length v = m) vs ->
  length (concat vs) = (length vs * m)%nat.
Proof. induction 1 as [|v vs E _ IH]; cbn; auto. rewrite app_length, IH, E. lia. Qed.
Lemma slice_chunk pre vs tl n m i : length pre = n -> Forall (fun v => length v = m) vs -> (i < length vs)%nat ->
  slice (n + i * m) m (pre ++ concat vs ++ tl) = nth i vs [].
Proof.
  intros Hn Hv Hi. destruct (nth_split vs [] Hi) as (l1 & l2 & E & L). rewrite E, concat_app, Forall_app in *.
  destruct Hv as [H1 H2]. cbn [concat] in *. inversion H2 as [|? ? Hx H3]; subst.
  replace (pre ++ (concat l1 ++ nth (length l1) vs [] ++ concat l2) ++ tl)
    with ((pre ++ concat l1) ++ nth (length l1) vs [] ++ (concat l2 ++ tl)) by now rewrite <- !app_assoc.
  assert (N : length (pre ++ concat l1) = (length pre + length l1 * length (nth (length l1) vs []))%nat).
  { rewrite app_length. f_equal. apply concat_length_const. auto. }
  rewrite <- N. rewrite app_nth2 by lia. rewrite Nat.sub_diag. cbn [nth]. now apply slice_at.
Qed.
Lemma chunks_of pre vs tl n m (f : nat -> list Z) : length pre = n -> Forall (fun v => length v = m) vs ->
  (forall i, f i = slice (n + i * m) m (pre ++ concat vs ++ tl)) -> map f (seq 0 (length vs)) = vs.
Proof.
  intros Hn Hv Hf. apply nth_ext with (d := f 0%nat) (d' := []); [now rewrite map_length, seq_length|].
  intros i Hi. rewrite map_length, seq_length in Hi. rewrite map_nth, seq_nth by auto. cbn [plus].
  rewrite Hf. now apply slice_chunk.
Qed.
(** conversely, a region of a union is the concatenation of its chunks *)
Lemma slice_length o n l : (o + n <= length l)%nat -> length (slice o n l) = n.
Proof. intros H. unfold slice. rewrite firstn_length, skipn_length. lia. Qed.
Lemma slice_digits B o n l : digits B l -> digits B (slice o n l).
Proof.
  intros H. unfold slice, digits in *. apply Forall_forall. intros x Hx.
  rewrite Forall_forall in H. apply H. rewrite <- (firstn_skipn o l). apply in_or_app. right.
  rewrite <- (firstn_skipn n (skipn o l)). apply in_or_app. now left.
Qed.
Lemma slice_cat o n m l : slice o n l ++ slice (o + n) m l = slice o (n + m) l.
Proof.
  unfold slice. set (l' := skipn o l). replace (skipn (o + n) l) with (skipn n l').
  - clearbody l'. revert n l'. induction n as [|n IH]; intros [|a l']; cbn; auto.
    + now rewrite firstn_nil.
    + now rewrite IH.
  - subst l'. clear. revert o l. induction o as [|o IH]; intros [|a l]; cbn; auto. now rewrite skipn_nil.
Qed.
Lemma concat_chunks o n m l : concat (map (fun i => slice (o + i * m) m l) (seq 0 n)) = slice o (n * m) l.
Proof.
  induction n as [|n IH]; [reflexivity|]. rewrite seq_S, map_app, concat_app, IH. cbn [map concat].
  rewrite app_nil_r. cbn [plus]. rewrite slice_cat. f_equal. lia.
Qed.

(** ** Monad *)
Lemma pbind_some {A B} (p : parser A) (q : A -> parser B) f v f' : p f = Ok (Some (v, f')) -> pbind p q f = q v f'.
Proof. intros H. unfold pbind. now rewrite H. Qed.
Lemma pbind_none {A B} (p : parser A) (q : A -> parser B) f : p f = Ok None -> pbind p q f = Ok None.
Proof. intros H. unfold pbind. now rewrite H. Qed.
Lemma pbind_inv {A B} (p : parser A) (q : A -> parser B) f r : pbind p q f = Ok (Some r) ->
  exists v f', p f = Ok (Some (v, f')) /\ q v f' = Ok (Some r).
Proof. unfold pbind. destruct (p f) as [[[v f']|]| | | |]; cbn; try discriminate. eauto. Qed.

(** ** Forward direction.  Texts are written with a newline before every line but the first, so that
    the rest of a stream is empty or starts with a newline. *)
Definition nl (f : list Z) : Prop := f = [] \/ exists f', f = 10 :: f'.
Definition reads {A} (p : parser A) (t : list Z) (v : A) : Prop :=
  (forall sfx, nl sfx -> p (t ++ sfx) = Ok (Some (v, sfx))) /\
  (forall t1 t2, t = t1 ++ t2 -> t2 <> [] -> p t1 = Ok None).
(** the same for parsers of a part of a line *)
Definition reads0 {A} (p : parser A) (t : list Z) (v : A) : Prop :=
  (forall sfx, p (t ++ sfx) = Ok (Some (v, sfx))) /\
  (forall t1 t2, t = t1 ++ t2 -> t2 <> [] -> p t1 = Ok None).
Lemma reads0_reads {A} (p : parser A) t v : reads0 p t v -> reads p t v.
Proof. intros [H1 H2]. split; auto. Qed.
Lemma app_cut {A} (t1 t2 a b : list A) : a ++ b = t1 ++ t2 ->
  (exists b', t1 = a ++ b' /\ b = b' ++ t2) \/ (exists a', a = t1 ++ a' /\ a' <> []).
Proof.
  revert t1. induction a as [|x a IH]; intros [|y t1] E; cbn in *.
  - left. exists []. auto.
  - left. exists (y :: t1). auto.
  - right. exists (x :: a). split; [auto|discriminate].
  - injection E as -> E. destruct (IH _ E) as [(b' & -> & ->)|(a' & -> & Ha)]; [left; eauto|right; eauto].
Qed.
Lemma reads0_bind {A B} (p : parser A) (q : A -> parser B) t u v w :
  reads0 p t v -> reads0 (q v) u w -> reads0 (pbind p q) (t ++ u) w.
Proof.
  intros [H1 H2] [G1 G2]. split.
  - intros sfx. rewrite <- app_assoc, (pbind_some _ _ _ _ _ (H1 _)). apply G1.
  - intros t1 t2 E N. destruct (app_cut _ _ _ _ E) as [(b & -> & ->)|(a & -> & Na)].
    + rewrite (pbind_some _ _ _ _ _ (H1 _)). now apply (G2 b t2).
    + apply pbind_none. now apply (H2 t1 a).
Qed.
Lemma reads0_pret {A} (v : A) : reads0 (pret v) [] v.
Proof. split; [reflexivity|]. intros [|] [|] E N; try discriminate. now elim N. Qed.
Lemma nl_app u s : nl u -> nl s -> nl (u ++ s).
Proof. intros [->|[f ->]] H; [exact H|right; cbn; eauto]. Qed.
Lemma nl_prefix u b t : nl u -> u = b ++ t -> nl b.
Proof. intros [->|[f ->]] E; destruct b; [left; auto|discriminate|left; auto|]. injection E as <- _. right. eauto. Qed.
Lemma reads_bind {A B} (p : parser A) (q : A -> parser B) t u v w :
  reads p t v -> reads (q v) u w -> nl u -> reads (pbind p q) (t ++ u) w.
Proof.
  intros [H1 H2] [G1 G2] Nu. split.
  - intros sfx Hs. rewrite <- app_assoc, (pbind_some _ _ _ _ _ (H1 _ (nl_app _ _ Nu Hs))). now apply G1.
  - intros t1 t2 E N. destruct (app_cut _ _ _ _ E) as [(b & -> & ->)|(a & -> & Na)].
    + rewrite (pbind_some _ _ _ _ _ (H1 _ (nl_prefix _ _ _ Nu eq_refl))). now apply (G2 b t2).
    + apply pbind_none. now apply (H2 t1 a).
Qed.
Lemma reads_ret {A B} (p : parser A) (f : A -> B) t v : reads p t v -> reads (let* x := p in pret (f x)) t (f v).
Proof. intros H. rewrite <- (app_nil_r t). apply (reads_bind _ _ _ _ v); auto; [|left; auto]. apply reads0_reads, reads0_pret. Qed.
(** white space in front *)
Lemma reads_nl {A} (p : parser A) t v : (forall f, p f = p (skip_ws f)) -> t <> [] -> reads p t v -> reads p (10 :: t) v.
Proof.
  intros W Nt [H1 H2]. split.
  - intros sfx Hs. cbn [app]. rewrite W. change (skip_ws (10 :: t ++ sfx)) with (skip_ws (t ++ sfx)). rewrite <- W. auto.
  - intros [|c t1] t2 E N.
    + apply (H2 [] t); auto.
    + injection E as <- E. rewrite W. change (skip_ws (10 :: t1)) with (skip_ws t1). rewrite <- W. eauto.
Qed.

(** ** Lexical parsers *)
Lemma hex_byte_reads b : 0 <= b < 256 -> reads0 parse_hex_byte (hex2 b) b.
Proof.
  intros Hb. pose proof (hex2_range b Hb) as [R1 R2]. split.
  - intros sfx. cbn [hex2 app]. unfold parse_hex_byte.
    rewrite !isxdigit_hex by (apply hex_digit_hex; auto). cbn [bind negb]. rewrite !hex_digit_val by auto.
    rewrite <- (Z.div_mod b 16) by discriminate. reflexivity.
  - intros [|x [|y [|z t1]]] t2 E N; try reflexivity; try discriminate. injection E as _ _ E. destruct t2; [now elim N|discriminate].
Qed.
Lemma parse_hex_reads l : digits 256 l -> reads0 (parse_hex (length l)) (hex_text l) l.
Proof.
  induction 1 as [|b l Hb _ IH]; [apply reads0_pret|]. cbn [length parse_hex hex_text flat_map].
  apply (reads0_bind _ _ _ _ b); [now apply hex_byte_reads|]. rewrite <- (app_nil_r (flat_map hex2 l)).
  apply (reads0_bind _ _ _ _ l); [exact IH|apply reads0_pret].
Qed.
Lemma hex_text_hd l : digits 256 l -> forall t1 t2, hex_text l = t1 ++ t2 -> skip_ws t1 = t1.
Proof.
  intros D t1 t2 E. destruct t1 as [|c t1]; [reflexivity|]. destruct l as [|b l]; [discriminate|].
  injection E as <- E. cbn [skip_ws]. inversion D; subst.
  rewrite hex_not_space; auto. apply hex_digit_hex. apply hex2_range; auto.
Qed.
Lemma skip_ws_app_hd t sfx : skip_ws t = t -> t <> [] -> skip_ws (t ++ sfx) = t ++ sfx.
Proof.
  destruct t as [|c t]; [intros _ N; now elim N|]. cbn [skip_ws app]. destruct (isspace c); auto.
  intros E _. exfalso. assert (L : forall f, (length (skip_ws f) <= length f)%nat).
  { clear. induction f as [|c f IH]; cbn; auto. destruct (isspace c); cbn; lia. }
  specialize (L t). rewrite E in L. cbn in L. lia.
Qed.
Lemma Parse_Bytes_ws n f : Parse_Bytes n f = Parse_Bytes n (skip_ws f).
Proof.
  unfold Parse_Bytes. f_equal. induction f as [|c f IH]; cbn; auto. destruct (isspace c) eqn:E; auto. cbn. now rewrite E.
Qed.
Lemma skip_ws_idem f : skip_ws (skip_ws f) = skip_ws f.
Proof. induction f as [|c f IH]; cbn; auto. destruct (isspace c) eqn:E; auto. cbn. now rewrite E. Qed.
Lemma Parse_Bytes_reads l : digits 256 l -> l <> [] -> reads (Parse_Bytes (length l)) (hex_text l) l.
Proof.
  intros D N. destruct (parse_hex_reads l D) as [H1 H2]. split.
  - intros sfx _. unfold Parse_Bytes. rewrite skip_ws_app_hd; [apply H1| |].
    + apply (hex_text_hd l D _ []). now rewrite app_nil_r.
    + destruct l; [now elim N|discriminate].
  - intros t1 t2 E Nt. unfold Parse_Bytes. rewrite (hex_text_hd l D t1 t2 E). eauto.
Qed.
Lemma hex_text_length l : length (hex_text l) = (2 * length l)%nat.
Proof. induction l as [|b l IH]; cbn in *; auto. unfold hex_text in IH. rewrite IH. lia. Qed.
Lemma parse_0x_reads : reads0 parse_0x [48; 120] tt.
Proof.
  split; [reflexivity|]. intros [|x [|y [|z t1]]] t2 E N; try reflexivity; try discriminate.
  injection E as _ _ E. destruct t2; [now elim N|discriminate].
Qed.
Lemma digits_rev B l : digits B l -> digits B (rev l).
Proof. unfold digits. rewrite !Forall_forall. intros H x Hx. apply H. now apply in_rev. Qed.
Lemma packed_fp_reads l n : digits 256 l -> length l = n -> reads0 (parse_packed_fp n) (fp_text l) l.
Proof.
  intros D L. assert (R : reads0 (let* _ := parse_0x in let* l := parse_hex n in pret (rev l)) (fp_text l) l).
  { unfold fp_text. apply (reads0_bind _ _ _ _ tt); [apply parse_0x_reads|]. rewrite <- (app_nil_r (hex_text (rev l))).
    apply (reads0_bind _ _ _ _ (rev l)).
    - rewrite <- L, <- rev_length. apply parse_hex_reads, digits_rev, D.
    - rewrite rev_involutive. apply reads0_pret. }
  destruct R as [H1 H2]. split.
  - intros sfx. unfold parse_packed_fp. exact (H1 sfx).
  - intros t1 t2 E N. unfold parse_packed_fp. replace (skip_ws t1) with t1; [eauto|].
    destruct t1 as [|c t1]; [reflexivity|]. injection E as <- E. reflexivity.
Qed.
Lemma comma_reads : reads0 parse_comma [44] tt.
Proof.
  split; [reflexivity|]. intros [|x [|y t1]] t2 E N; try reflexivity; try discriminate.
  injection E as _ E. destruct t2; [now elim N|discriminate].
Qed.
(** the text of an element without the newline *)
Definition fp2_line (K : pok) (v : list Z) : list Z := fp_text (fp2_real K v) ++ [44] ++ fp_text (fp2_imag K v).
Definition wf_fp2 (K : pok) (v : list Z) : Prop := length v = sidh_bytes K /\ digits 256 v.
Lemma wf_fp2_parts K v : wf_fp2 K v -> (length (fp2_real K v) = fp_bytes (fpar K) /\ digits 256 (fp2_real K v)) /\
  (length (fp2_imag K v) = fp_bytes (fpar K) /\ digits 256 (fp2_imag K v)) /\ fp2_real K v ++ fp2_imag K v = v.
Proof.
  intros [L D]. unfold fp2_real, fp2_imag, sidh_bytes, digits in *. rewrite firstn_length, skipn_length.
  rewrite <- (firstn_skipn (fp_bytes (fpar K)) v) in D. apply Forall_app in D. rewrite firstn_skipn.
  repeat split; try tauto; lia.
Qed.
Lemma Parse_Fp2_reads K v : wf_fp2 K v -> reads0 (Parse_Fp2 K) (fp2_line K v) v.
Proof.
  intros W. apply wf_fp2_parts in W as ([L1 D1] & [L2 D2] & E). unfold Parse_Fp2, fp2_line.
  apply (reads0_bind _ _ _ _ (fp2_real K v)); [now apply packed_fp_reads|].
  apply (reads0_bind _ _ _ _ tt); [apply comma_reads|].
  rewrite <- (app_nil_r (fp_text (fp2_imag K v))).
  apply (reads0_bind _ _ _ _ (fp2_imag K v)); [now apply packed_fp_reads|]. rewrite E. apply reads0_pret.
Qed.
Lemma packed_fp_ws n f : parse_packed_fp n f = parse_packed_fp n (skip_ws f).
Proof. unfold parse_packed_fp. now rewrite skip_ws_idem. Qed.
Lemma Parse_Fp2_ws K f : Parse_Fp2 K f = Parse_Fp2 K (skip_ws f).
Proof. unfold Parse_Fp2, pbind at 1 4. now rewrite packed_fp_ws. Qed.
Lemma fp2_nl_reads K v : wf_fp2 K v -> reads (Parse_Fp2 K) (10 :: fp2_line K v) v.
Proof.
  intros W. apply reads_nl; [apply Parse_Fp2_ws|discriminate|]. now apply reads0_reads, Parse_Fp2_reads.
Qed.
Lemma bytes_nl_reads l n : digits 256 l -> length l = n -> l <> [] -> reads (Parse_Bytes n) (10 :: hex_text l) l.
Proof.
  intros D <- N. apply reads_nl; [apply Parse_Bytes_ws| |now apply Parse_Bytes_reads]. destruct l; [now elim N|discriminate].
Qed.
Lemma nl_cons t : nl (10 :: t).
Proof. right. eauto. Qed.
Lemma flat_nl {A} (f : A -> list Z) l : nl (flat_map (fun a => 10 :: f a) l).
Proof. destruct l; [left; auto|cbn; apply nl_cons]. Qed.
Lemma chain_reads K vs : Forall (wf_fp2 K) vs ->
  reads (parse_chain K (length vs)) (flat_map (fun v => 10 :: fp2_line K v) vs) (concat vs).
Proof.
  induction 1 as [|v vs W _ IH]; [apply reads0_reads, reads0_pret|]. cbn [length parse_chain flat_map concat].
  apply (reads_bind _ _ _ _ v); [now apply fp2_nl_reads| |apply flat_nl].
  now apply (reads_ret (parse_chain K (length vs)) (fun l => v ++ l)).
Qed.
(** tags *)
Lemma tag_reads t : legal_tag t -> reads scan_int (10 :: tag_text t) t.
Proof.
  intros L. split.
  - intros sfx [-> | [f ->]]; destruct L as [-> | [-> | ->]]; reflexivity.
  - intros t1 t2 E N. destruct L as [-> | [-> | ->]]; cbn in E;
      repeat (destruct t1 as [|? t1]; [solve [reflexivity | cbn in E; subst; now elim N]|
        first [discriminate E | injection E as <- E]]).
Qed.

(** ** Responses *)
Definition positive_sizes (K : pok) : Prop := (0 < hide_bytes K)%nat /\ (0 < hash_bytes K)%nat.
(** text of a response with leading newlines *)
Definition response_line (K : pok) (r : response) : list Z :=
  10 :: tag_text (r_tag r) ++
  if r_tag r =? -1 then
    (10 :: hex_text (left_r2 K r)) ++ (10 :: hex_text (left_h3 K r)) ++
    flat_map (fun i => 10 :: fp2_line K (left_x K r i)) (seq 0 (height K))
  else if r_tag r =? 0 then
    (10 :: hex_text (bottom_r2 K r)) ++ (10 :: hex_text (bottom_r3 K r)) ++ (10 :: fp2_line K (bottom_E2 K r)) ++
    flat_map (fun i => 10 :: fp2_line K (bottom_x K r i)) (seq 0 (width K))
  else
    (10 :: hex_text (right_h2 K r)) ++ (10 :: hex_text (right_r3 K r)) ++
    flat_map (fun i => 10 :: fp2_line K (right_x K r i)) (seq 0 (height K)).
Lemma shift_nl {A} (f : A -> list Z) l : 10 :: flat_map (fun a => f a ++ [10]) l = flat_map (fun a => 10 :: f a) l ++ [10].
Proof. induction l as [|a l IH]; [reflexivity|]. cbn [flat_map app]. rewrite <- !app_assoc. cbn [app]. now rewrite IH. Qed.
Lemma fp2_text_line K v : fp2_text K v = fp2_line K v ++ [10].
Proof. unfold fp2_text, fp2_line. now rewrite <- !app_assoc. Qed.
Lemma flat_map_ext' {A B} (f g : A -> list B) l : (forall a, f a = g a) -> flat_map f l = flat_map g l.
Proof. intros H. apply flat_map_ext. auto. Qed.
Lemma chain_shift {A} K (f : A -> list Z) l :
  flat_map (fun i => 10 :: fp2_line K (f i)) l ++ [10] = 10 :: flat_map (fun i => fp2_text K (f i)) l.
Proof.
  rewrite <- shift_nl. f_equal. apply flat_map_ext'. intros. now rewrite fp2_text_line.
Qed.
Lemma response_shift K r : 10 :: response_text K r = response_line K r ++ [10].
Proof.
  unfold response_text, response_line.
  destruct (r_tag r =? -1); [|destruct (r_tag r =? 0)]; rewrite ?app_comm_cons, <- ?app_assoc, chain_shift, ?fp2_text_line;
    cbn [app]; rewrite <- ?app_assoc; reflexivity.
Qed.
Lemma responses_shift K l : 10 :: flat_map (response_text K) l = flat_map (response_line K) l ++ [10].
Proof.
  induction l as [|r l IH]; [reflexivity|]. cbn [flat_map]. rewrite <- app_assoc, <- IH.
  change (10 :: response_text K r ++ flat_map (response_text K) l) with ((10 :: response_text K r) ++ flat_map (response_text K) l).
  rewrite response_shift, <- app_assoc. reflexivity.
Qed.
Definition proof_line (K : pok) (p : proof) : list Z :=
  fp2_line K (p_E0 p) ++ (10 :: fp2_line K (p_E1 p)) ++ flat_map (response_line K) (p_resp p).
Lemma proof_shift K p : proof_text K p = proof_line K p ++ [10].
Proof.
  unfold proof_text, proof_line. rewrite !fp2_text_line. cbn [app]. rewrite <- ?app_assoc. cbn [app]. rewrite <- ?app_assoc. cbn [app].
  now rewrite responses_shift.
Qed.

(** The data of a response as the concatenation of its fields *)
Lemma union_ge K t : legal_tag t -> (active_size K t <= union_size K)%nat.
Proof. unfold union_size. intros [-> | [-> | ->]]; unfold active_size; cbn [Z.eqb Pos.eqb]; lia. Qed.
Lemma wf_slice K r o n : wf_response K r -> (o + n <= union_size K)%nat ->
  length (slice o n (r_mem r)) = n /\ digits 256 (slice o n (r_mem r)).
Proof. intros [L D] H. split; [apply slice_length; lia|now apply slice_digits]. Qed.
Lemma wf_chunks K r o n f : wf_response K r -> (o + n * sidh_bytes K <= union_size K)%nat ->
  (forall i, f i = slice (o + i * sidh_bytes K) (sidh_bytes K) (r_mem r)) -> Forall (wf_fp2 K) (map f (seq 0 n)).
Proof.
  intros W H Hf. apply Forall_forall. intros v Hv. apply in_map_iff in Hv as (i & <- & Hi%in_seq). rewrite Hf.
  apply (wf_slice K); auto. nia.
Qed.
Lemma flat_map_map' {A B C} (f : B -> list C) (g : A -> B) l : flat_map (fun a => f (g a)) l = flat_map f (map g l).
Proof. induction l as [|a l IH]; cbn; auto. now rewrite IH. Qed.

Definition parsed_from (K : pok) (r0 r : response) : response :=
  mkResp (r_tag r) (overwrite (slice 0 (active_size K (r_tag r)) (r_mem r)) (r_mem r0)).
Lemma nonempty {A} (l : list A) n : length l = n -> (0 < n)%nat -> l <> [].
Proof. intros L H ->. cbn in L. lia. Qed.

Lemma response_reads K r0 r : positive_sizes K -> wf_response K r -> legal_tag (r_tag r) ->
  reads (parse_response K r0) (response_line K r) (parsed_from K r0 r).
Proof.
  intros [P1 P2] W L. pose proof (union_ge K _ L) as U. unfold parse_response, response_line, parsed_from.
  rewrite app_comm_cons. apply (reads_bind _ _ _ _ (r_tag r)); [now apply tag_reads| |].
  2:{ destruct L as [-> | [-> | ->]]; cbn; apply nl_cons. }
  unfold RESP_LEFT, RESP_BOTTOM, RESP_RIGHT, active_size in *.
  destruct L as [E | [E | E]]; rewrite E in *; cbn [Z.eqb Pos.eqb] in *.
  - destruct (wf_slice K r 0 (hide_bytes K)) as [L1 D1]; [auto|lia|].
    destruct (wf_slice K r (hide_bytes K) (hash_bytes K)) as [L2 D2]; [auto|lia|].
    apply (reads_bind _ _ _ _ (left_r2 K r)); [apply bytes_nl_reads; eauto using nonempty| |apply nl_cons].
    apply (reads_bind _ _ _ _ (left_h3 K r)); [apply bytes_nl_reads; eauto using nonempty| |apply flat_nl].
    rewrite (flat_map_map' (fun v => 10 :: fp2_line K v)).
    replace (overwrite _ _) with ((fun x => overwrite (left_r2 K r ++ left_h3 K r ++ x) (r_mem r0)) (concat (map (left_x K r) (seq 0 (height K))))).
    + replace (height K) with (length (map (left_x K r) (seq 0 (height K)))) at 1 by now rewrite map_length, seq_length.
      apply (reads_ret _ (fun x => mkResp (-1) (overwrite (left_r2 K r ++ left_h3 K r ++ x) (r_mem r0)))).
      apply chain_reads. apply (wf_chunks K r (hide_bytes K + hash_bytes K)); auto; lia.
    + f_equal. unfold left_x. rewrite concat_chunks. unfold left_r2, left_h3. rewrite slice_cat, slice_cat. f_equal. lia.
  - destruct (wf_slice K r 0 (hide_bytes K)) as [L1 D1]; [auto|lia|].
    destruct (wf_slice K r (hide_bytes K) (hide_bytes K)) as [L2 D2]; [auto|lia|].
    assert (W3 : wf_fp2 K (bottom_E2 K r)) by (apply (wf_slice K); auto; lia).
    apply (reads_bind _ _ _ _ (bottom_r2 K r)); [apply bytes_nl_reads; eauto using nonempty| |apply nl_cons].
    apply (reads_bind _ _ _ _ (bottom_r3 K r)); [apply bytes_nl_reads; eauto using nonempty| |apply nl_cons].
    apply (reads_bind _ _ _ _ (bottom_E2 K r)); [now apply fp2_nl_reads| |apply flat_nl].
    rewrite (flat_map_map' (fun v => 10 :: fp2_line K v)).
    replace (overwrite _ _) with ((fun x => overwrite (bottom_r2 K r ++ bottom_r3 K r ++ bottom_E2 K r ++ x) (r_mem r0)) (concat (map (bottom_x K r) (seq 0 (width K))))).
    + replace (width K) with (length (map (bottom_x K r) (seq 0 (width K)))) at 1 by now rewrite map_length, seq_length.
      apply (reads_ret _ (fun x => mkResp 0 (overwrite (bottom_r2 K r ++ bottom_r3 K r ++ bottom_E2 K r ++ x) (r_mem r0)))).
      apply chain_reads. apply (wf_chunks K r (hide_bytes K + hide_bytes K + sidh_bytes K)); auto; lia.
    + f_equal. unfold bottom_x. rewrite concat_chunks. unfold bottom_r2, bottom_r3, bottom_E2.
      rewrite slice_cat, slice_cat, slice_cat. f_equal. lia.
  - destruct (wf_slice K r 0 (hash_bytes K)) as [L1 D1]; [auto|lia|].
    destruct (wf_slice K r (hash_bytes K) (hide_bytes K)) as [L2 D2]; [auto|lia|].
    apply (reads_bind _ _ _ _ (right_h2 K r)); [apply bytes_nl_reads; eauto using nonempty| |apply nl_cons].
    apply (reads_bind _ _ _ _ (right_r3 K r)); [apply bytes_nl_reads; eauto using nonempty| |apply flat_nl].
    rewrite (flat_map_map' (fun v => 10 :: fp2_line K v)).
    replace (overwrite _ _) with ((fun x => overwrite (right_h2 K r ++ right_r3 K r ++ x) (r_mem r0)) (concat (map (right_x K r) (seq 0 (height K))))).
    + replace (height K) with (length (map (right_x K r) (seq 0 (height K)))) at 1 by now rewrite map_length, seq_length.
      apply (reads_ret _ (fun x => mkResp 1 (overwrite (right_h2 K r ++ right_r3 K r ++ x) (r_mem r0)))).
      apply chain_reads. apply (wf_chunks K r (hash_bytes K + hide_bytes K)); auto; lia.
    + f_equal. unfold right_x. rewrite concat_chunks. unfold right_h2, right_r3. rewrite slice_cat, slice_cat. f_equal. lia.
Qed.
Lemma response_line_nl K l : nl (flat_map (response_line K) l).
Proof. destruct l; [left; auto|right; cbn; eauto]. Qed.
Lemma responses_reads K l0 l : positive_sizes K -> length l0 = length l -> Forall (wf_response K) l ->
  Forall (fun r => legal_tag (r_tag r)) l ->
  reads (parse_responses K l0) (flat_map (response_line K) l) (map (fun x => parsed_from K (fst x) (snd x)) (combine l0 l)).
Proof.
  intros P. revert l. induction l0 as [|r0 l0 IH]; intros [|r l] E W L; try discriminate E; [apply reads0_reads, reads0_pret|].
  cbn [parse_responses flat_map combine map fst snd]. inversion W; inversion L; subst. injection E as E.
  apply (reads_bind _ _ _ _ (parsed_from K r0 r)); [now apply response_reads| |apply response_line_nl].
  apply (reads_ret _ (fun l' => parsed_from K r0 r :: l')). now apply IH.
Qed.
Definition parsed_proof (K : pok) (p0 p : proof) : proof :=
  mkProof (p_E0 p) (p_E1 p) (map (fun x => parsed_from K (fst x) (snd x)) (combine (p_resp p0) (p_resp p))).
Lemma Parse_reads K p0 p : positive_sizes K -> wf_proof K p -> legal_tags p -> length (p_resp p0) = reps K ->
  reads (Parse K p0) (proof_line K p) (parsed_proof K p0 p).
Proof.
  intros P (W0 & W1 & R & W) L L0. unfold Parse, proof_line.
  apply (reads_bind _ _ _ _ (p_E0 p)); [now apply reads0_reads, Parse_Fp2_reads| |apply nl_cons].
  apply (reads_bind _ _ _ _ (p_E1 p)); [now apply fp2_nl_reads| |apply response_line_nl].
  apply (reads_ret _ (fun rs => mkProof (p_E0 p) (p_E1 p) rs)). apply responses_reads; auto. congruence.
Qed.
