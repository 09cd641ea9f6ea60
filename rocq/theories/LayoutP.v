(** Proofs about the language accepted by Parse. *)
From Verif Require Import Base BaseP Out Params Poik Codec CodecSpec CodecP ParseP.

Definition gram {A} (p : parser A) (R : A -> list token -> Prop) : Prop := forall f v rest,
  p f = Ok (Some (v, rest)) <-> exists ts w, R v ts /\ f = w ++ rest /\ layout ts w rest.

Lemma layout_app ts1 ts2 w1 w2 rest : layout ts1 w1 (w2 ++ rest) -> layout ts2 w2 rest -> layout (ts1 ++ ts2) (w1 ++ w2) rest.
Proof.
  revert w1. induction ts1 as [|t ts1 IH]; cbn [layout app]; intros w1 H1 H2; [now subst|].
  destruct H1 as (ws & u & w' & -> & Hws & Hu & Hl & Hd). exists ws, u, (w' ++ w2).
  rewrite <- !app_assoc. repeat split; auto.
Qed.
Lemma layout_app_inv ts1 ts2 w rest : layout (ts1 ++ ts2) w rest ->
  exists w1 w2, w = w1 ++ w2 /\ layout ts1 w1 (w2 ++ rest) /\ layout ts2 w2 rest.
Proof.
  revert w. induction ts1 as [|t ts1 IH]; cbn [layout app]; intros w H; [exists [], w; auto|].
  destruct H as (ws & u & w' & -> & Hws & Hu & Hl & Hd). destruct (IH _ Hl) as (w1 & w2 & -> & H1 & H2).
  exists (ws ++ u ++ w1), w2. rewrite <- !app_assoc. split; auto. split; auto. exists ws, u, w1.
  rewrite <- app_assoc in Hd. auto.
Qed.
Lemma gram_bind {A B} (p : parser A) (q : A -> parser B) R R2 : gram p R -> (forall a, gram (q a) (R2 a)) ->
  gram (pbind p q) (fun b ts => exists a ts1 ts2, R a ts1 /\ R2 a b ts2 /\ ts = ts1 ++ ts2).
Proof.
  intros Hp Hq f b rest. split.
  - intros (a & f' & H1 & H2)%pbind_inv. apply Hp in H1 as (ts1 & w1 & R1 & -> & L1).
    apply Hq in H2 as (ts2 & w2 & R2' & -> & L2). exists (ts1 ++ ts2), (w1 ++ w2). split; [eauto 8|].
    split; [now rewrite app_assoc|]. now apply layout_app.
  - intros (ts & w & (a & ts1 & ts2 & R1 & R2' & ->) & -> & L). apply layout_app_inv in L as (w1 & w2 & -> & L1 & L2).
    assert (E : p ((w1 ++ w2) ++ rest) = Ok (Some (a, w2 ++ rest))) by (apply Hp; exists ts1, w1; rewrite <- app_assoc; auto).
    rewrite (pbind_some _ _ _ _ _ E). apply Hq. exists ts2, w2. auto.
Qed.
Lemma gram_pret {A} (a : A) : gram (pret a) (fun v ts => v = a /\ ts = []).
Proof.
  intros f v rest. unfold pret. split.
  - intros [= <- <-]. exists [], []. cbn. auto.
  - intros (ts & w & [-> ->] & -> & L). cbn in L. now subst.
Qed.
Lemma gram_ext {A} (p : parser A) R R' : gram p R -> (forall v ts, R v ts <-> R' v ts) -> gram p R'.
Proof.
  intros H E f v rest. rewrite (H f v rest). split; intros (ts & w & Hr & Hw); exists ts, w; split; auto; now apply E.
Qed.

(** ** Lexical level *)
Lemma parse_hex_gram n : forall f l rest, parse_hex n f = Ok (Some (l, rest)) <->
  length l = n /\ digits 256 l /\ exists w, f = w ++ rest /\ map lower w = hex_text l.
Proof.
  induction n as [|n IH]; intros f l rest; cbn [parse_hex].
  - unfold pret. split.
    + intros [= <- <-]. split; auto. split; [constructor|]. exists []. auto.
    + intros (L & _ & w & -> & E). destruct l; [|discriminate]. destruct w; [reflexivity|discriminate].
  - split.
    + intros (b & f1 & H1 & H2)%pbind_inv. apply pbind_inv in H2 as (l' & f2 & H2 & H3).
      unfold pret in H3. injection H3 as <- ->. apply IH in H2 as (L & D & w & -> & E).
      unfold parse_hex_byte in H1. destruct f as [|x [|y f]]; try discriminate.
      destruct (isxdigit x) as [[]| | | |] eqn:Ex; try discriminate. cbn [bind negb] in H1.
      destruct (isxdigit y) as [[]| | | |] eqn:Ey; try discriminate. cbn [bind negb] in H1.
      assert (Hb : 16 * hex_val x + hex_val y = b)
        by exact (f_equal (fun o => match o with Ok (Some (v, _)) => v | _ => 0 end) H1).
      assert (Hf : f = w ++ rest)
        by exact (f_equal (fun o => match o with Ok (Some (_, g)) => g | _ => [] end) H1).
      clear H1. subst b f. apply isxdigit_true in Ex, Ey.
      pose proof (hex_val_range _ Ex). pose proof (hex_val_range _ Ey).
      split; [cbn; lia|]. split; [constructor; [lia|exact D]|]. exists (x :: y :: w). split; [reflexivity|].
      cbn [map hex_text flat_map hex2 app]. fold (hex_text l'). rewrite <- E.
      replace ((16 * hex_val x + hex_val y) / 16) with (hex_val x) by lia.
      replace ((16 * hex_val x + hex_val y) mod 16) with (hex_val y) by lia.
      now rewrite !hex_digit_val_lower.
    + intros (L & D & w & -> & E). destruct l as [|b l]; [discriminate|]. inversion D as [|? ? Hb D']; subst.
      pose proof (hex2_range b Hb) as [B1 B2].
      destruct w as [|x [|y w]]; try discriminate. cbn [map hex_text flat_map hex2 app] in E. injection E as Ex Ey E.
      assert (Hx : is_hex x = true) by (apply lower_hex; rewrite Ex; now apply hex_digit_hex).
      assert (Hy : is_hex y = true) by (apply lower_hex; rewrite Ey; now apply hex_digit_hex).
      assert (H1 : parse_hex_byte ((x :: y :: w) ++ rest) = Ok (Some (b, w ++ rest))).
      { cbn [app]. unfold parse_hex_byte. rewrite !isxdigit_hex by auto. cbn [bind negb].
        rewrite <- (hex_val_lower x Hx), <- (hex_val_lower y Hy), Ex, Ey, !hex_digit_val by auto.
        now rewrite <- (Z.div_mod b 16) by discriminate. }
      rewrite (pbind_some _ _ _ _ _ H1).
      assert (H2 : parse_hex n (w ++ rest) = Ok (Some (l, rest))).
      { apply IH. split; [now injection L|]. split; auto. exists w. auto. }
      now rewrite (pbind_some _ _ _ _ _ H2).
Qed.
Lemma skip_ws_split f : exists ws, f = ws ++ skip_ws f /\ forallb isspace ws = true.
Proof.
  induction f as [|c f (ws & E & H)]; [exists []; auto|]. cbn. destruct (isspace c) eqn:C.
  - exists (c :: ws). cbn. rewrite C, <- E. auto.
  - exists []. auto.
Qed.
Lemma skip_ws_ws ws f : forallb isspace ws = true -> skip_ws (ws ++ f) = skip_ws f.
Proof. induction ws as [|c ws IH]; cbn; auto. destruct (isspace c); [auto|discriminate]. Qed.
Lemma skip_ws_hd c f : isspace c = false -> skip_ws (c :: f) = c :: f.
Proof. intros H. cbn. now rewrite H. Qed.

Definition Rbytes (n : nat) (l : list Z) (ts : list token) : Prop := length l = n /\ digits 256 l /\ ts = [Thex (hex_text l)].
Lemma Parse_Bytes_gram n : (0 < n)%nat -> gram (Parse_Bytes n) (Rbytes n).
Proof.
  intros Hn f l rest. unfold Parse_Bytes. rewrite parse_hex_gram. split.
  - intros (L & D & w & E & M). destruct (skip_ws_split f) as (ws & F & Hws). exists [Thex (hex_text l)], (ws ++ w).
    split; [repeat split; auto|]. split; [rewrite F, E; now rewrite app_assoc|].
    exists ws, w, []. rewrite app_nil_r. cbn. auto.
  - intros (ts & w & (L & D & ->) & -> & ws & u & w' & -> & Hws & M & E & _). cbn in E, M. subst w'.
    split; auto. split; auto. exists u. split; auto. rewrite app_nil_r, <- app_assoc, skip_ws_ws by auto.
    destruct l as [|b l]; [cbn in L; lia|]. destruct u as [|x u]; [discriminate|]. cbn [app]. apply skip_ws_hd.
    cbn [map hex_text flat_map hex2 app] in M. injection M as Mx _. apply hex_not_space, lower_hex. rewrite Mx.
    inversion D; subst. apply hex_digit_hex, hex2_range; auto.
Qed.
Lemma lower_fix c d : lower c = d -> d < 65 \/ 102 < d -> c = d.
Proof. unfold lower. destruct ((65 <=? c) && (c <=? 70)) eqn:E; lia. Qed.
Definition Rfp (n : nat) (l : list Z) (ts : list token) : Prop := length l = n /\ digits 256 l /\ ts = [Thex (fp_text l)].
Lemma packed_fp_gram n : gram (parse_packed_fp n) (Rfp n).
Proof.
  intros f l rest. unfold parse_packed_fp. split.
  - intros ([] & f1 & H1 & H2)%pbind_inv. apply pbind_inv in H2 as (l' & f2 & H2 & H3). unfold pret in H3.
    injection H3 as <- ->. apply parse_hex_gram in H2 as (L & D & w & -> & M).
    destruct (skip_ws_split f) as (ws & F & Hws). unfold parse_0x in H1. destruct (skip_ws f) as [|a [|b g]]; try discriminate.
    destruct ((a =? 48) && (b =? 120)) eqn:E; try discriminate. injection H1 as ->.
    apply andb_prop in E as [Ea%Z.eqb_eq Eb%Z.eqb_eq]. subst a b.
    exists [Thex (fp_text (rev l'))], (ws ++ 48 :: 120 :: w). split.
    { split; [now rewrite rev_length|]. split; auto. now apply digits_rev. }
    split; [rewrite F; now rewrite <- app_assoc|]. exists ws, (48 :: 120 :: w), []. rewrite app_nil_r.
    split; auto. split; auto. split; [|cbn; auto]. cbn [spells]. unfold fp_text. rewrite rev_involutive, <- M. reflexivity.
  - intros (ts & w & (L & D & ->) & -> & ws & u & w' & -> & Hws & M & E & _). cbn in E, M. subst w'.
    destruct u as [|a [|b u]]; try discriminate. cbn [map] in M. injection M as Ma Mb M.
    apply lower_fix in Ma; [|lia]. apply lower_fix in Mb; [|lia]. subst a b.
    rewrite app_nil_r, <- app_assoc, skip_ws_ws by auto. cbn [app]. rewrite skip_ws_hd by reflexivity.
    rewrite (pbind_some parse_0x _ _ tt (u ++ rest)) by reflexivity.
    assert (H : parse_hex n (u ++ rest) = Ok (Some (rev l, rest))).
    { apply parse_hex_gram. rewrite rev_length. split; auto. split; [now apply digits_rev|]. eauto. }
    rewrite (pbind_some _ _ _ _ _ H). now rewrite rev_involutive.
Qed.
Lemma comma_gram : gram parse_comma (fun _ ts => ts = [Thex [44]]).
Proof.
  intros f [] rest. unfold parse_comma. split.
  - intros H. destruct (skip_ws_split f) as (ws & F & Hws). destruct (skip_ws f) as [|c g]; try discriminate.
    destruct (Z.eqb_spec c 44); try discriminate. injection H as ->. subst c.
    exists [Thex [44]], (ws ++ [44]). split; auto. split; [rewrite F; now rewrite <- app_assoc|].
    exists ws, [44], []. cbn. auto.
  - intros (ts & w & -> & -> & ws & u & w' & -> & Hws & M & E & _). cbn in E, M. subst w'.
    destruct u as [|a [|b u]]; try discriminate. cbn in M. injection M as Ma. apply lower_fix in Ma; [|lia]. subst a.
    rewrite app_nil_r, <- app_assoc, skip_ws_ws by auto. reflexivity.
Qed.
Definition Rfp2 (K : pok) (v : list Z) (ts : list token) : Prop := wf_fp2 K v /\ ts = fp2_tokens K v.
Lemma fp2_real_app K re im : length re = fp_bytes (fpar K) -> fp2_real K (re ++ im) = re.
Proof. intros L. unfold fp2_real. rewrite firstn_app, <- L, firstn_all, Nat.sub_diag. apply app_nil_r. Qed.
Lemma fp2_imag_app K re im : length re = fp_bytes (fpar K) -> fp2_imag K (re ++ im) = im.
Proof. intros L. unfold fp2_imag. rewrite skipn_app, <- L, skipn_all, Nat.sub_diag. reflexivity. Qed.
Lemma Parse_Fp2_gram K : gram (Parse_Fp2 K) (Rfp2 K).
Proof.
  unfold Parse_Fp2. eapply gram_ext.
  { apply gram_bind; [apply packed_fp_gram|]. intros re. apply gram_bind; [apply comma_gram|]. intros u.
    apply gram_bind; [apply packed_fp_gram|]. intros im. apply gram_pret. }
  intros v ts. split.
  - intros (re & ts1 & ts2 & (L1 & D1 & ->) & ([] & ts3 & ts4 & -> & (im & ts5 & ts6 & (L2 & D2 & ->) & (-> & ->) & ->) & ->) & ->).
    split; [split|].
    + rewrite app_length. unfold sidh_bytes. lia.
    + apply Forall_app. auto.
    + unfold fp2_tokens. now rewrite fp2_real_app, fp2_imag_app.
  - intros [W ->]. apply wf_fp2_parts in W as ([L1 D1] & [L2 D2] & E).
    exists (fp2_real K v), [Thex (fp_text (fp2_real K v))], [Thex [44]; Thex (fp_text (fp2_imag K v))].
    split; [repeat split; auto|]. split; [|reflexivity].
    exists tt, [Thex [44]], [Thex (fp_text (fp2_imag K v))]. split; auto. split; [|reflexivity].
    exists (fp2_imag K v), [Thex (fp_text (fp2_imag K v))], []. split; [repeat split; auto|]. split; auto.
Qed.
(** numbers *)
Lemma scan_digits_spec f acc : exists ds rest, f = ds ++ rest /\ forallb isdigit ds = true /\
  scan_digits f acc = (fold_left (fun a c => 10 * a + (c - 48)) ds acc, rest) /\
  match rest with c :: _ => isdigit c = false | [] => True end.
Proof.
  revert acc. induction f as [|c f IH]; intros acc; cbn; [exists [], []; cbn; auto|].
  destruct (isdigit c) eqn:C.
  - destruct (IH (10 * acc + (c - 48))) as (ds & rest & -> & H1 & H2 & H3). exists (c :: ds), rest. cbn. rewrite C. auto.
  - exists [], (c :: f). cbn. auto.
Qed.
Lemma digits_unique ds1 ds2 r1 r2 : forallb isdigit ds1 = true -> forallb isdigit ds2 = true ->
  match r1 with c :: _ => isdigit c = false | [] => True end -> match r2 with c :: _ => isdigit c = false | [] => True end ->
  ds1 ++ r1 = ds2 ++ r2 -> ds1 = ds2 /\ r1 = r2.
Proof.
  revert ds2. induction ds1 as [|c ds1 IH]; intros [|d ds2] H1 H2 N1 N2 E; cbn in *.
  - auto.
  - subst r1. apply andb_prop in H2 as [H2 _]. congruence.
  - subst r2. apply andb_prop in H1 as [H1 _]. congruence.
  - injection E as -> E. apply andb_prop in H1 as [_ H1], H2 as [_ H2]. destruct (IH _ H1 H2 N1 N2 E). subst. auto.
Qed.
Lemma scan_sign_spec f : exists sign sg f', f = sign ++ f' /\ scan_sign f = (sg, f') /\
  ((sign = [45] /\ sg = -1) \/ (sign = [43] /\ sg = 1) \/ (sign = [] /\ sg = 1)).
Proof.
  destruct f as [|c f]; cbn; [exists [], 1, []; cbn; auto 10|].
  destruct (Z.eqb_spec c 45); [subst; exists [45], (-1), f; auto 10|].
  destruct (Z.eqb_spec c 43); [subst; exists [43], 1, f; auto 10|]. exists [], 1, (c :: f); auto 10.
Qed.
Definition int_range (z : Z) : Prop := - 2 ^ 31 <= z < 2 ^ 31.
Definition Rint (z : Z) (ts : list token) : Prop := int_range z /\ ts = [Tint z].
Lemma scan_int_gram : gram scan_int Rint.
Proof.
  intros f z rest. unfold scan_int. split.
  - intros H. destruct (skip_ws_split f) as (ws & F & Hws).
    destruct (scan_sign_spec (skip_ws f)) as (sign & sg & f' & E & Es & Hs). rewrite Es in H.
    destruct f' as [|c f']; try discriminate. destruct (isdigit c) eqn:C; try discriminate.
    destruct (scan_digits_spec (c :: f') 0) as (ds & r & Ed & Hd & Hv & Hr). rewrite Hv in H.
    destruct (_ && _) eqn:B; try discriminate. injection H as <- <-. apply andb_prop in B as [B1%Z.leb_le B2%Z.ltb_lt].
    exists [Tint (sg * decimal ds)], (ws ++ sign ++ ds). split; [split; [split; assumption|reflexivity]|].
    split; [rewrite F, E, Ed; now rewrite <- !app_assoc|]. exists ws, (sign ++ ds), [].
    rewrite app_nil_r. split; auto. split; auto. split; [|cbn; auto]. cbn [spells]. exists sign, ds. split; auto.
    split; [intros ->; cbn in Ed; subst r; congruence|]. split; auto.
    destruct Hs as [[-> ->]|[[-> ->]|[-> ->]]]; [left|right|right]; split; auto; unfold decimal; lia.
  - intros (ts & w & (R & ->) & -> & ws & u & w' & -> & Hws & (sign & ds & -> & N & Hd & Hs) & E & Hr). cbn in E. subst w'.
    cbn [app] in Hr. rewrite app_nil_r, <- !app_assoc, skip_ws_ws by auto.
    destruct ds as [|d ds]; [now elim N|]. pose proof Hd as Hd'. cbn [forallb] in Hd'. apply andb_prop in Hd' as [D0 _].
    assert (Dv : 48 <= d <= 57) by (unfold isdigit in D0; lia).
    assert (S : exists sg, scan_sign (skip_ws (sign ++ (d :: ds) ++ rest)) = (sg, (d :: ds) ++ rest) /\ z = sg * decimal (d :: ds)).
    { destruct Hs as [[-> ->]|[[-> | ->] ->]].
      - exists (-1). cbn [app]. rewrite skip_ws_hd by reflexivity. split; [reflexivity|lia].
      - exists 1. cbn [app]. rewrite skip_ws_hd by (unfold isspace; lia). split; [|lia]. unfold scan_sign.
        destruct (Z.eqb_spec d 45); [lia|]. destruct (Z.eqb_spec d 43); [lia|]. reflexivity.
      - exists 1. cbn [app]. rewrite skip_ws_hd by reflexivity. split; [reflexivity|lia]. }
    destruct S as (sg & -> & ->). cbn [app]. rewrite D0.
    destruct (scan_digits_spec (d :: ds ++ rest) 0) as (ds2 & r2 & Ed & Hd2 & Hv & Hr2). rewrite Hv.
    destruct (digits_unique ds2 (d :: ds) r2 rest) as [-> ->]; auto. fold (decimal (d :: ds)).
    destruct R as [R1 R2]. rewrite (proj2 (Z.leb_le _ _) R1), (proj2 (Z.ltb_lt _ _) R2). reflexivity.
Qed.

(** ** Chains and responses *)
Definition Rchain (K : pok) (n : nat) (v : list Z) (ts : list token) : Prop :=
  exists vs, length vs = n /\ Forall (wf_fp2 K) vs /\ v = concat vs /\ ts = flat_map (fp2_tokens K) vs.
Lemma chain_gram K n : gram (parse_chain K n) (Rchain K n).
Proof.
  induction n as [|n IH]; cbn [parse_chain].
  - eapply gram_ext; [apply gram_pret|]. intros v ts. split.
    + intros [-> ->]. exists []. auto.
    + intros (vs & L & _ & -> & ->). destruct vs; [auto|discriminate].
  - eapply gram_ext.
    { apply gram_bind; [apply Parse_Fp2_gram|]. intros v. apply gram_bind; [apply IH|]. intros l. apply gram_pret. }
    intros v ts. split.
    + intros (x & ts1 & ts2 & (W & ->) & (l & ts3 & ts4 & (vs & L & F & -> & ->) & (-> & ->) & ->) & ->).
      exists (x :: vs). cbn. rewrite app_nil_r, L. auto.
    + intros (vs & L & F & -> & ->). destruct vs as [|x vs]; [discriminate|]. inversion F; subst.
      exists x, (fp2_tokens K x), (flat_map (fp2_tokens K) vs). split; [split; auto|]. split; [|reflexivity].
      exists (concat vs), (flat_map (fp2_tokens K) vs), []. split; [|split; [split; auto|now rewrite app_nil_r]].
      exists vs. split; [now injection L|auto].
Qed.
Definition Rresp (K : pok) (r0 r : response) (ts : list token) : Prop :=
  exists tag, int_range tag /\
  ((tag = -1 /\ exists r2 h3 x ts', length r2 = hide_bytes K /\ digits 256 r2 /\ length h3 = hash_bytes K /\ digits 256 h3 /\
      Rchain K (height K) x ts' /\ r = mkResp tag (overwrite (r2 ++ h3 ++ x) (r_mem r0)) /\
      ts = Tint tag :: Thex (hex_text r2) :: Thex (hex_text h3) :: ts') \/
   (tag = 0 /\ exists r2 r3 e x ts', length r2 = hide_bytes K /\ digits 256 r2 /\ length r3 = hide_bytes K /\ digits 256 r3 /\
      wf_fp2 K e /\ Rchain K (width K) x ts' /\ r = mkResp tag (overwrite (r2 ++ r3 ++ e ++ x) (r_mem r0)) /\
      ts = Tint tag :: Thex (hex_text r2) :: Thex (hex_text r3) :: fp2_tokens K e ++ ts') \/
   (tag = 1 /\ exists h2 r3 x ts', length h2 = hash_bytes K /\ digits 256 h2 /\ length r3 = hide_bytes K /\ digits 256 r3 /\
      Rchain K (height K) x ts' /\ r = mkResp tag (overwrite (h2 ++ r3 ++ x) (r_mem r0)) /\
      ts = Tint tag :: Thex (hex_text h2) :: Thex (hex_text r3) :: ts')).
Lemma gram_pfail {A} : @gram A pfail (fun _ _ => False).
Proof. intros f v rest. unfold pfail. split; [discriminate|]. intros (? & ? & [] & _). Qed.
Lemma gram_if {A} (b : bool) (p q : parser A) R R' : gram p R -> gram q R' ->
  gram (if b then p else q) (fun v ts => if b then R v ts else R' v ts).
Proof. intros H H' f v rest. destruct b; [apply H|apply H']. Qed.
Lemma response_gram K r0 : positive_sizes K -> gram (parse_response K r0) (Rresp K r0).
Proof.
  intros [P1 P2]. unfold parse_response. eapply gram_ext.
  { apply gram_bind; [apply scan_int_gram|]. intros tag. apply gram_if.
    - apply gram_bind; [now apply Parse_Bytes_gram|]. intros r2. apply gram_bind; [now apply Parse_Bytes_gram|]. intros h3.
      apply gram_bind; [apply chain_gram|]. intros x. apply gram_pret.
    - apply gram_if.
      + apply gram_bind; [now apply Parse_Bytes_gram|]. intros r2. apply gram_bind; [now apply Parse_Bytes_gram|]. intros r3.
        apply gram_bind; [apply Parse_Fp2_gram|]. intros e. apply gram_bind; [apply chain_gram|]. intros x. apply gram_pret.
      + apply gram_if; [|apply gram_pfail].
        apply gram_bind; [now apply Parse_Bytes_gram|]. intros r2. apply gram_bind; [now apply Parse_Bytes_gram|]. intros h3.
        apply gram_bind; [apply chain_gram|]. intros x. apply gram_pret. }
  unfold RESP_LEFT, RESP_BOTTOM, RESP_RIGHT. intros r ts. split.
  - intros (tag & ts1 & ts2 & (I & ->) & H & ->). exists tag. split; auto.
    destruct (Z.eqb_spec tag (-1)) as [->|_].
    { left. split; auto. destruct H as (r2 & ? & ? & (L2 & D2 & ->) & (h3 & ? & ? & (L3 & D3 & ->) & (x & ts' & ? & C & (-> & ->) & ->) & ->) & ->).
      exists r2, h3, x, ts'. rewrite app_nil_r. cbn. auto 10. }
    destruct (Z.eqb_spec tag 0) as [->|_].
    { right. left. split; auto. destruct H as (r2 & ? & ? & (L2 & D2 & ->) & (r3 & ? & ? & (L3 & D3 & ->) & (e & ? & ? & (W & ->) & (x & ts' & ? & C & (-> & ->) & ->) & ->) & ->) & ->).
      exists r2, r3, e, x, ts'. rewrite app_nil_r. cbn. auto 12. }
    destruct (Z.eqb_spec tag 1) as [->|_]; [|contradiction].
    right. right. split; auto. destruct H as (h2 & ? & ? & (L2 & D2 & ->) & (r3 & ? & ? & (L3 & D3 & ->) & (x & ts' & ? & C & (-> & ->) & ->) & ->) & ->).
    exists h2, r3, x, ts'. rewrite app_nil_r. cbn. auto 10.
  - intros (tag & I & [(-> & r2 & h3 & x & ts' & L2 & D2 & L3 & D3 & C & -> & ->)|
      [(-> & r2 & r3 & e & x & ts' & L2 & D2 & L3 & D3 & W & C & -> & ->)|(-> & h2 & r3 & x & ts' & L2 & D2 & L3 & D3 & C & -> & ->)]]).
    + exists (-1), [Tint (-1)], (Thex (hex_text r2) :: Thex (hex_text h3) :: ts'). split; [split; auto|]. split; [|reflexivity].
      cbn [Z.eqb Pos.eqb]. exists r2, [Thex (hex_text r2)], (Thex (hex_text h3) :: ts'). split; [repeat split; auto|]. split; [|reflexivity].
      exists h3, [Thex (hex_text h3)], ts'. split; [repeat split; auto|]. split; [|reflexivity].
      exists x, ts', []. rewrite app_nil_r. auto.
    + exists 0, [Tint 0], (Thex (hex_text r2) :: Thex (hex_text r3) :: fp2_tokens K e ++ ts'). split; [split; auto|]. split; [|reflexivity].
      cbn [Z.eqb Pos.eqb]. exists r2, [Thex (hex_text r2)], (Thex (hex_text r3) :: fp2_tokens K e ++ ts'). split; [repeat split; auto|]. split; [|reflexivity].
      exists r3, [Thex (hex_text r3)], (fp2_tokens K e ++ ts'). split; [repeat split; auto|]. split; [|reflexivity].
      exists e, (fp2_tokens K e), ts'. split; [split; auto|]. split; [|reflexivity]. exists x, ts', []. rewrite app_nil_r. auto.
    + exists 1, [Tint 1], (Thex (hex_text h2) :: Thex (hex_text r3) :: ts'). split; [split; auto|]. split; [|reflexivity].
      cbn [Z.eqb Pos.eqb]. exists h2, [Thex (hex_text h2)], (Thex (hex_text r3) :: ts'). split; [repeat split; auto|]. split; [|reflexivity].
      exists r3, [Thex (hex_text r3)], ts'. split; [repeat split; auto|]. split; [|reflexivity].
      exists x, ts', []. rewrite app_nil_r. auto.
Qed.
