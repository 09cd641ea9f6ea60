(** Proofs about the samplers and hash inputs. *)
From Verif Require Import Base BaseP Out Params Poik Keccak KeccakSpec KeccakP SpongeP Hashing HashSpec.
Set Bullet Behavior "Strict Subproofs".

Lemma trits5_eq v : trits5 v =
  let d x := if x mod 3 >? 1 then x mod 3 - 3 else x mod 3 in
  [d v; d (v / 3); d (v / 3 / 3); d (v / 3 / 3 / 3); d (v / 3 / 3 / 3 / 3)].
Proof.
  assert (H : forall x, trit (x mod 3) = if x mod 3 >? 1 then x mod 3 - 3 else x mod 3).
  { intros x. pose proof (Z.mod_pos_bound x 3 ltac:(lia)). unfold trit.
    destruct (Z.eqb_spec (x mod 3) 2), (Z.gtb_spec (x mod 3) 1); lia. }
  unfold trits5. rewrite !H. rewrite !Zdiv.Zdiv_Zdiv by lia. reflexivity.
Qed.
Lemma trit_range x : In (trit (x mod 3)) [-1; 0; 1].
Proof.
  pose proof (Z.mod_pos_bound x 3 ltac:(lia)). unfold trit.
  destruct (Z.eqb_spec (x mod 3) 2); cbn; lia.
Qed.
Lemma trits_of_range v t : In t (trits_of v) -> In t [-1; 0; 1].
Proof.
  unfold trits_of. destruct (v <? 243); [|contradiction].
  intros H. cbn [trits5 In] in H. destruct H as [<-|[<-|[<-|[<-|[<-|[]]]]]]; apply trit_range.
Qed.

Lemma store_app (a b : list Z) x : b <> [] -> store (length a) x (a ++ b) = Ok (a ++ x :: tl b).
Proof.
  intros Hb. unfold store. destruct b as [|y b]; [congruence|].
  rewrite app_length. cbn [length]. destruct (Nat.ltb_spec (length a) (length a + S (length b))); [|lia].
  rewrite upd_app_r by lia. rewrite Nat.sub_diag. reflexivity.
Qed.

(** state after writing the list w into a buffer: w ++ rest *)
Definition dig (v : Z) (k : nat) : list Z :=
  map (fun i => let r := (Nat.iter i (fun x => x / 3) v) mod 3 in if r >? 1 then r - 3 else r) (seq 0 k).
Lemma dig_S v k : dig v (S k) = (if v mod 3 >? 1 then v mod 3 - 3 else v mod 3) :: dig (v / 3) k.
Proof.
  unfold dig. cbn [seq map]. f_equal. rewrite <- seq_shift, map_map. apply map_ext. intros i.
  assert (E : Nat.iter (S i) (fun x => x / 3) v = Nat.iter i (fun x => x / 3) (v / 3)).
  { clear k. induction i; [reflexivity|]. change (Nat.iter (S i) (fun x => x / 3) v / 3 = Nat.iter i (fun x => x / 3) (v / 3) / 3). now rewrite IHi. }
  now rewrite E.
Qed.
Lemma skipn_S {A} n (l : list A) : skipn (S n) l = skipn n (tl l).
Proof. destruct l; cbn [skipn tl]; [now rewrite skipn_nil|reflexivity]. Qed.

Lemma st_inner_ok k : forall v w num rest, (length w <= num)%nat -> (num <= length w + length rest)%nat ->
  let m := Nat.min k (num - length w) in
  st_inner k v (length w) num (w ++ rest) = Ok ((length w + m)%nat, w ++ dig v m ++ skipn m rest).
Proof.
  induction k as [|k IH]; intros v w num rest H1 H2 m.
  - unfold m. cbn [st_inner Nat.min]. rewrite Nat.add_0_r. reflexivity.
  - cbn [st_inner]. destruct (Nat.ltb_spec (length w) num) as [L|L].
    + destruct rest as [|y rest]; [cbn [length] in H2; lia|].
      rewrite store_app by congruence. cbn [bind tl].
      set (x := if v mod 3 >? 1 then v mod 3 - 3 else v mod 3).
      assert (E : w ++ x :: rest = (w ++ [x]) ++ rest) by (rewrite <- app_assoc; reflexivity).
      rewrite E. assert (L1 : length (w ++ [x]) = S (length w)) by (rewrite app_length; cbn; lia).
      rewrite <- L1. rewrite IH; rewrite ?L1; cbn [length] in *; try lia.
      assert (Em : m = S (Nat.min k (num - S (length w)))) by (unfold m; lia).
      rewrite Em, dig_S. cbn [skipn]. fold x. f_equal. f_equal; [lia|]. rewrite <- app_assoc. reflexivity.
    + assert (m = 0)%nat as -> by (unfold m; lia). rewrite Nat.add_0_r. reflexivity.
Qed.
Lemma dig_5 v : dig v 5 = trits5 v.
Proof. rewrite trits5_eq. reflexivity. Qed.
Lemma dig_firstn v k : (k <= 5)%nat -> dig v k = firstn k (trits5 v).
Proof.
  intros H. rewrite <- dig_5. unfold dig. rewrite firstn_map. f_equal.
  do 6 (destruct k as [|k]; [reflexivity|]). lia.
Qed.

Lemma st_outer_ok bytes : forall w num rest, (length w <= num)%nat -> (num <= length w + length rest)%nat ->
  let t := firstn (num - length w) (trit_stream bytes) in
  st_outer bytes (length w) num (w ++ rest) = Ok ((length w + length t)%nat, w ++ t ++ skipn (length t) rest).
Proof.
  induction bytes as [|v bytes IH]; intros w num rest H1 H2 t.
  - unfold t. cbn [st_outer]. rewrite firstn_nil. cbn [length app skipn]. rewrite Nat.add_0_r.
    destruct (Nat.ltb_spec (length w) num); [reflexivity|]. repeat f_equal. lia.
  - cbn [st_outer]. destruct (Nat.ltb_spec (length w) num) as [L|L].
    + unfold t, trit_stream. cbn [flat_map]. fold (trit_stream bytes). unfold trits_of.
      rewrite Z.geb_leb. destruct (Z.leb_spec 243 v) as [V|V]; [rewrite (proj2 (Z.ltb_ge v 243)) by lia|rewrite (proj2 (Z.ltb_lt v 243)) by lia].
      * cbn [app]. apply IH; lia.
      * rewrite st_inner_ok by lia. set (m := Nat.min 5 (num - length w)). cbn [bind].
        assert (D : dig v m = firstn m (trits5 v)) by (apply dig_firstn; lia).
        assert (LD : length (dig v m) = m) by (unfold dig; now rewrite map_length, seq_length).
        rewrite app_assoc. replace (length w + m)%nat with (length (w ++ dig v m)) by (rewrite app_length; lia).
        rewrite IH by (rewrite app_length, ?skipn_length; lia).
        assert (LT : length (trits5 v) = 5%nat) by reflexivity.
        assert (EF : firstn (num - length w) (trits5 v ++ trit_stream bytes) =
                     dig v m ++ firstn (num - length (w ++ dig v m)) (trit_stream bytes)).
        { rewrite firstn_app, LT, D, app_length, firstn_length, LT.
          f_equal; [|f_equal; lia]. destruct (Nat.le_gt_cases (num - length w) 5).
          - f_equal. lia.
          - rewrite !firstn_all2; auto; rewrite LT; lia. }
        rewrite EF. rewrite !app_length, LD.
        set (u := firstn _ (trit_stream bytes)). rewrite <- !app_assoc. f_equal. f_equal; [lia|].
        f_equal. f_equal. f_equal.
        clear. revert rest. generalize m as k. intros k. revert u. induction k; intros u rest; [reflexivity|].
        rewrite skipn_S. rewrite IHk. cbn [Nat.add]. now rewrite skipn_S.
    + unfold t. replace (num - length w)%nat with 0%nat by lia. cbn [firstn length app skipn]. repeat f_equal. lia.
Qed.

Lemma sample_ternary_ok bytes trits num : (num <= length trits)%nat ->
  let t := firstn num (trit_stream bytes) in
  sample_ternary bytes trits num = Ok (length t, t ++ skipn (length t) trits).
Proof.
  intros H t. unfold sample_ternary. change 0%nat with (length (@nil Z)).
  change trits with (([] : list Z) ++ trits) at 1. rewrite st_outer_ok by (cbn [length]; lia). cbn [length app].
  rewrite Nat.sub_0_r. reflexivity.
Qed.

(** A bijection between the accepted bytes and 5-tuples of trits. *)
Lemma trits5_inj u v : 0 <= u < 243 -> 0 <= v < 243 -> trits5 u = trits5 v -> u = v.
Proof.
  intros Hu Hv E.
  assert (T : forall x y, 0 <= x < 3 -> 0 <= y < 3 -> trit x = trit y -> x = y).
  { intros x y Hx Hy. unfold trit. destruct (Z.eqb_spec x 2), (Z.eqb_spec y 2); lia. }
  injection E as E0 E1 E2 E3 E4.
  apply T in E0, E1, E2, E3, E4; try (apply Z.mod_pos_bound; lia).
  Z.div_mod_to_equations. lia.
Qed.
Lemma trits5_surj a b c d e : In a [-1; 0; 1] -> In b [-1; 0; 1] -> In c [-1; 0; 1] -> In d [-1; 0; 1] -> In e [-1; 0; 1] ->
  exists v, 0 <= v < 243 /\ trits5 v = [a; b; c; d; e].
Proof.
  intros Ha Hb Hc Hd He.
  exists (a mod 3 + 3 * (b mod 3) + 9 * (c mod 3) + 27 * (d mod 3) + 81 * (e mod 3)).
  cbn [In] in *.
  destruct Ha as [<-|[<-|[<-|[]]]], Hb as [<-|[<-|[<-|[]]]], Hc as [<-|[<-|[<-|[]]]], Hd as [<-|[<-|[<-|[]]]], He as [<-|[<-|[<-|[]]]];
    vm_compute; repeat split; congruence.
Qed.

(** ** Challenge *)
Lemma trit_stream_app a b : trit_stream (a ++ b) = trit_stream a ++ trit_stream b.
Proof. apply flat_map_app. Qed.

Lemma ch_loop_ok reps fuel : forall done state w rest,
  done = length w -> (length w <= reps)%nat -> length (w ++ rest) = reps ->
  let t := firstn (reps - done) (trit_stream (fst (shake256_squeezeblocks fuel state))) in
  ch_loop reps fuel done state (w ++ rest) =
  if (length w + length t =? reps)%nat then Ok (w ++ t) else NoFuel.
Proof.
  induction fuel as [|fuel IH]; intros done state w rest -> H1 H2 t; rewrite app_length in H2.
  - unfold t. cbn [ch_loop shake256_squeezeblocks keccak_squeezeblocks fst trit_stream flat_map].
    rewrite firstn_nil. cbn [length app]. rewrite app_nil_r, Nat.add_0_r.
    destruct (Nat.ltb_spec (length w) reps), (Nat.eqb_spec (length w) reps); auto; try lia.
    destruct rest; [now rewrite app_nil_r|cbn [length] in H2; lia].
  - unfold t. rewrite <- (Nat.add_1_l fuel). unfold shake256_squeezeblocks. rewrite squeeze_split.
    cbn [Nat.add ch_loop].
    unfold shake256_squeezeblocks in *. destruct (keccak_squeezeblocks 1 state SHAKE256_RATE) as [blk st1] eqn:E1.
    destruct (keccak_squeezeblocks fuel st1 SHAKE256_RATE) as [h st2] eqn:E2. cbn [fst].
    rewrite trit_stream_app.
    destruct (Nat.ltb_spec (length w) reps) as [L|L].
    + rewrite skipn_app, Nat.sub_diag, skipn_all. cbn [app skipn].
      rewrite sample_ternary_ok by lia. cbn [bind].
      set (u := firstn (reps - length w) (trit_stream blk)).
      rewrite firstn_app, Nat.sub_diag, firstn_all, firstn_O, app_nil_r.
      assert (LU : (length u <= reps - length w)%nat) by (unfold u; rewrite firstn_length; lia).
      rewrite app_assoc. rewrite IH; rewrite ?app_length, ?skipn_length; try lia.
      rewrite E2. cbn [fst].
      assert (EF : firstn (reps - length w) (trit_stream blk ++ trit_stream h) =
                   u ++ firstn (reps - (length w + length u)) (trit_stream h)).
      { rewrite firstn_app. fold u. f_equal. unfold u. rewrite firstn_length.
        destruct (Nat.le_gt_cases (reps - length w) (length (trit_stream blk))).
        - rewrite Nat.min_l by lia. replace (reps - (length w + (reps - length w)))%nat with 0%nat by lia.
          replace (reps - length w - length (trit_stream blk))%nat with 0%nat by lia. reflexivity.
        - rewrite Nat.min_r by lia. f_equal. lia. }
      rewrite EF. rewrite !app_length. rewrite Nat.add_assoc. rewrite app_assoc. reflexivity.
    + replace (reps - length w)%nat with 0%nat by lia. cbn [firstn length app]. rewrite app_nil_r, Nat.add_0_r.
      destruct (Nat.eqb_spec (length w) reps); [|lia].
      destruct rest; [now rewrite app_nil_r|cbn [length] in H2; lia].
Qed.

Lemma challenge_ok K fuel c challs : length challs = reps K -> digits 256 (challenge_input c) ->
  let t := firstn (reps K) (trit_stream (shake256 (fuel * 136) (challenge_input c))) in
  Challenge K fuel c challs = if (length t =? reps K)%nat then Ok t else NoFuel.
Proof.
  intros L D t. unfold Challenge. change challs with (([] : list Z) ++ challs) at 1.
  rewrite ch_loop_ok by (cbn; auto; lia). rewrite Nat.sub_0_r, shake256_stream by auto. reflexivity.
Qed.

(** ** Hash inputs *)
Lemma app_inj_len {A} (a b c d : list A) : length a = length c -> a ++ b = c ++ d -> a = c /\ b = d.
Proof.
  revert c. induction a as [|x a IH]; intros [|y c] L E; try discriminate; auto.
  injection L as L. injection E as -> E. apply IH in E as [-> ->]; auto.
Qed.
Lemma flat_pairs_inj n (l : list (list Z * list Z)) : forall m,
  Forall (fun h => length (fst h) = n /\ length (snd h) = n) l ->
  Forall (fun h => length (fst h) = n /\ length (snd h) = n) m ->
  length l = length m -> flat_map (fun h => fst h ++ snd h) l = flat_map (fun h => fst h ++ snd h) m -> l = m.
Proof.
  induction l as [|[a b] l IH]; intros [|[c d] m] Hl Hm L E; try discriminate; auto.
  inversion Hl as [|? ? [La Lb] Hl']; inversion Hm as [|? ? [Lc Ld] Hm']; subst; cbn [fst snd] in *.
  injection L as L. cbn [flat_map fst snd] in E. rewrite <- !app_assoc in E.
  apply app_inj_len in E as [-> E]; [|lia]. apply app_inj_len in E as [-> E]; [|lia].
  f_equal. apply IH; auto.
Qed.
Lemma challenge_input_inj K c d : wf_comm K c -> wf_comm K d -> challenge_input c = challenge_input d -> c = d.
Proof.
  intros (A1 & A2 & A3 & A4) (B1 & B2 & B3 & B4) E. unfold challenge_input, comm_bytes in E.
  injection E as E. destruct c as [c0 c1 ch], d as [d0 d1 dh]; cbn [c_j0 c_j1 c_hs] in *.
  apply app_inj_len in E as [-> E]; [|lia]. apply app_inj_len in E as [-> E]; [|lia].
  apply (flat_pairs_inj (hash_bytes K)) in E as ->; auto. lia.
Qed.
Lemma hiding_input_inj r v r' v' : length r = length r' -> hash_hiding_input r v = hash_hiding_input r' v' -> r = r' /\ v = v'.
Proof. intros L E. injection E as E. now apply app_inj_len in E. Qed.
Lemma domain_separated r v c : hash_hiding_input r v <> challenge_input c.
Proof. intros E. discriminate E. Qed.
