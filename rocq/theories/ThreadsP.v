(** Proofs about the worker threads. *)
From Verif Require Import Base BaseP Threads.

Section P.
Context {V : Type}.
Variable run : nat -> bool * V.
Variable REPS : nat.
Notation state := (@state V).
Notation step_worker := (step_worker run REPS).
Notation exec := (exec run REPS).

Lemma upd_spec {A} k (x : A) l : forall j, nth_error (upd k x l) j =
  if (j =? k)%nat then (match nth_error l j with Some _ => Some x | None => None end) else nth_error l j.
Proof.
  revert k. induction l as [|y l IH]; intros [|k] [|j]; cbn; auto; try (now destruct (j =? k)%nat).
Qed.
Lemma upd_length' {A} k (x : A) l : length (upd k x l) = length l.
Proof. revert k. induction l as [|y l IH]; intros [|k]; cbn; auto. Qed.
Definition isDone (p : pc) : nat := match p with Done => 1%nat | _ => 0%nat end.
Definition failing (p : pc) : nat := match p with StoreOkay => 1%nat | _ => 0%nat end.
Fixpoint tot (f : pc -> nat) (l : list pc) : nat := match l with [] => 0%nat | p :: l => (f p + tot f l)%nat end.
Lemma tot_upd f k x l p : nth_error l k = Some p -> (tot f (upd k x l) + f p = tot f l + f x)%nat.
Proof.
  revert k. induction l as [|y l IH]; intros [|k] E; cbn in *; try discriminate.
  - injection E as ->. lia.
  - specialize (IH _ E). lia.
Qed.
(** weight of the remaining work *)
Definition weight (p : pc) : nat := match p with Fetch => 1 | Work _ => 4 | StoreOkay => 3 | StoreIdx => 2 | Done => 0 end.
Definition measure (s : state) : nat := 4 * (REPS - idx s) + tot weight (workers s).
Lemma step_decreases k s s' : step_worker k s = Some s' -> (measure s' < measure s)%nat.
Proof.
  unfold Threads.step_worker, measure. destruct (nth_error (workers s) k) as [p|] eqn:E; [|discriminate].
  destruct p as [|i| | |]; try discriminate.
  - destruct (Nat.leb_spec REPS (idx s)) as [H|H]; intros [= <-]; cbn [idx workers];
      [pose proof (tot_upd weight k Done _ _ E)|pose proof (tot_upd weight k (Work (idx s)) _ _ E)]; cbn [weight] in *; lia.
  - destruct (run i) as [ok v]. intros [= <-]; cbn [idx workers].
    pose proof (tot_upd weight k (if ok then Fetch else StoreOkay) _ _ E). destruct ok; cbn [weight] in *; lia.
  - intros [= <-]; cbn [idx workers]. pose proof (tot_upd weight k StoreIdx _ _ E). cbn [weight] in *; lia.
  - intros [= <-]; cbn [idx workers]. pose proof (tot_upd weight k Done _ _ E). cbn [weight] in *; lia.
Qed.
Lemma exec_length sched s s' : exec sched s = Some s' -> (length sched + measure s' <= measure s)%nat.
Proof.
  revert s. induction sched as [|k sched IH]; cbn [Threads.exec length]; intros s; [intros [= <-]; lia|].
  destruct (step_worker k s) as [s1|] eqn:E; [|discriminate]. intros H. apply IH in H. apply step_decreases in E. lia.
Qed.
Lemma tot_repeat n : tot weight (repeat Fetch n) = n.
Proof. induction n; cbn; auto. Qed.

(** the invariant *)
Definition done_with (s : state) (i : nat) : Prop := slot s i = Some (snd (run i)).
Record Inv (s : state) : Prop := {
  I_nodup : NoDup (trace s);
  I_trace : forall i, In i (trace s) -> (i < idx s /\ i < REPS)%nat;
  I_work : forall k i, nth_error (workers s) k = Some (Work i) -> In i (trace s);
  I_uniq : forall k j i, nth_error (workers s) k = Some (Work i) -> nth_error (workers s) j = Some (Work i) -> k = j;
  I_done : forall i, In i (trace s) -> (exists k, nth_error (workers s) k = Some (Work i) /\ slot s i = None) \/
     (done_with s i /\ forall k, nth_error (workers s) k <> Some (Work i));
  I_slot : forall i, ~ In i (trace s) -> slot s i = None;
  I_fail : forall i, In i (trace s) -> done_with s i -> fst (run i) = false ->
     okay s = false \/ exists k, nth_error (workers s) k = Some StoreOkay;
  I_okay : okay s = false -> exists i, In i (trace s) /\ fst (run i) = false;
  I_pend : forall k, nth_error (workers s) k = Some StoreOkay \/ nth_error (workers s) k = Some StoreIdx -> exists i, In i (trace s) /\ fst (run i) = false;
  I_sidx : forall k, nth_error (workers s) k = Some StoreIdx -> okay s = false;
  I_all : okay s = true -> forall i, (i < idx s /\ i < REPS)%nat -> In i (trace s);
  I_bound : (idx s <= REPS + tot isDone (workers s))%nat }.
Lemma start_inv n : Inv (start n).
Proof.
  unfold start. split; cbn [idx okay slot workers trace].
  - constructor.
  - intros i [].
  - intros k i E. apply nth_error_In, repeat_spec in E. discriminate.
  - intros k j i E. apply nth_error_In, repeat_spec in E. discriminate.
  - intros i [].
  - auto.
  - intros i [].
  - discriminate.
  - intros k [E|E]; apply nth_error_In, repeat_spec in E; discriminate.
  - intros k E. apply nth_error_In, repeat_spec in E. discriminate.
  - lia.
  - lia.
Qed.
Ltac upds := repeat match goal with
  | H : nth_error (upd ?k _ _) ?j = _ |- _ => rewrite upd_spec in H; destruct (Nat.eqb_spec j k); [subst|] end.
Lemma step_inv k s s' : Inv s -> step_worker k s = Some s' -> Inv s'.
Proof.
  intros I. unfold Threads.step_worker. destruct (nth_error (workers s) k) as [p|] eqn:E; [|discriminate].
  destruct p as [|i| | |]; try discriminate.
  - destruct (Nat.leb_spec REPS (idx s)) as [H|H]; intros [= <-].
    + (* no more work *)
      assert (N : forall j q, nth_error (upd k Done (workers s)) j = Some q -> q <> Done -> nth_error (workers s) j = Some q).
      { intros j q F Hq. rewrite upd_spec in F. destruct (Nat.eqb_spec j k); [|exact F]. subst. rewrite E in F. congruence. }
      assert (N' : forall j q, nth_error (workers s) j = Some q -> q <> Fetch -> nth_error (upd k Done (workers s)) j = Some q).
      { intros j q F Hq. rewrite upd_spec. destruct (Nat.eqb_spec j k); [|exact F]. subst. congruence. }
      destruct I. split; cbn [idx okay slot workers trace]; auto.
      * intros i Hi. specialize (I_trace0 i Hi). lia.
      * intros j i F. eapply I_work0, N; eauto; discriminate.
      * intros j j' i F F'. eapply I_uniq0; eapply N; eauto; discriminate.
      * intros i Hi. destruct (I_done0 i Hi) as [(j & F & S)|[S F]]; [left; exists j; split; auto; apply N'; auto; discriminate|].
        right. split; [exact S|]. intros j F'. apply (F j). eapply N; eauto. discriminate.
      * intros i Hi D Fl. destruct (I_fail0 i Hi D Fl) as [O|[j F]]; [auto|]. right. exists j. apply N'; auto. discriminate.
      * intros j [F|F]; apply (I_pend0 j); [left|right]; eapply N; eauto; discriminate.
      * intros j F. eapply I_sidx0, N; eauto. discriminate.
      * intros O i Hi. apply I_all0; auto. lia.
      * pose proof (tot_upd isDone k Done _ _ E). cbn in *. lia.
    + (* index idx s is handed out *)
      assert (N : forall j q, nth_error (upd k (Work (idx s)) (workers s)) j = Some q -> (j = k /\ q = Work (idx s)) \/ (j <> k /\ nth_error (workers s) j = Some q)).
      { intros j q F. rewrite upd_spec in F. destruct (Nat.eqb_spec j k); [|auto]. subst. rewrite E in F. left. split; congruence. }
      assert (N' : forall j q, nth_error (workers s) j = Some q -> q <> Fetch -> nth_error (upd k (Work (idx s)) (workers s)) j = Some q).
      { intros j q F Hq. rewrite upd_spec. destruct (Nat.eqb_spec j k); [|exact F]. subst. congruence. }
      assert (Nk : nth_error (upd k (Work (idx s)) (workers s)) k = Some (Work (idx s))) by (rewrite upd_spec, Nat.eqb_refl, E; auto).
      destruct I. assert (Fr : ~ In (idx s) (trace s)) by (intros F; specialize (I_trace0 _ F); lia).
      split; cbn [idx okay slot workers trace].
      * constructor; auto.
      * intros i [<-|Hi]; [lia|]. specialize (I_trace0 i Hi). lia.
      * intros j i F. destruct (N _ _ F) as [[-> [= <-]]|[_ F']]; [left; auto|right; eauto].
      * intros j j' i F F'. destruct (N _ _ F) as [[-> [= ->]]|[Nj G]]; destruct (N _ _ F') as [[-> G']|[Nj' G']]; auto.
        -- elim Fr. eauto.
        -- injection G' as ->. elim Fr. eauto.
        -- eauto.
      * intros i [<-|Hi].
        -- left. exists k. split; auto.
        -- destruct (I_done0 i Hi) as [(j & F & S)|[S F]].
           ++ left. exists j. split; auto. apply N'; auto. discriminate.
           ++ right. split; [exact S|]. intros j F'. destruct (N _ _ F') as [[-> [= ->]]|[_ F'']]; [contradiction|exact (F j F'')].
      * intros i Hi. apply I_slot0. intros F. apply Hi. now right.
      * intros i [<-|Hi] D Fl.
        -- unfold done_with in D. cbn [slot] in D. rewrite I_slot0 in D by auto. discriminate.
        -- destruct (I_fail0 i Hi D Fl) as [O|[j F]]; [auto|]. right. exists j. apply N'; auto. discriminate.
      * intros O. destruct (I_okay0 O) as (i & Hi & F). exists i. split; auto. now right.
      * intros j [F|F]; (destruct (N _ _ F) as [[_ G]|[_ G]]; [discriminate|]); destruct (I_pend0 j) as (i & Hi & Fi); auto; exists i; split; auto; now right.
      * intros j F. destruct (N _ _ F) as [[_ G]|[_ G]]; [discriminate|eauto].
      * intros O i Hi. destruct (Nat.eq_dec i (idx s)) as [->|Ni]; [left; auto|right]. apply I_all0; auto. lia.
      * pose proof (tot_upd isDone k (Work (idx s)) _ _ E). cbn in *. lia.
  - (* the work on index i *)
    destruct (run i) as [ok v] eqn:R. intros [= <-].
    set (np := if ok then Fetch else StoreOkay).
    assert (N : forall j q, nth_error (upd k np (workers s)) j = Some q -> (j = k /\ q = np) \/ (j <> k /\ nth_error (workers s) j = Some q)).
    { intros j q F. rewrite upd_spec in F. destruct (Nat.eqb_spec j k); [|auto]. subst. rewrite E in F. left. split; congruence. }
    assert (N' : forall j q, nth_error (workers s) j = Some q -> j <> k -> nth_error (upd k np (workers s)) j = Some q).
    { intros j q F Hq. rewrite upd_spec. destruct (Nat.eqb_spec j k); [contradiction|exact F]. }
    assert (Nk : nth_error (upd k np (workers s)) k = Some np) by (rewrite upd_spec, Nat.eqb_refl, E; auto).
    assert (Hnp : forall x, np <> Work x) by (intros x; subst np; destruct ok; discriminate).
    destruct I. pose proof (I_work0 k i E) as Hi.
    split; cbn [idx okay slot workers trace]; auto.
    + intros j x F. destruct (N _ _ F) as [[_ G]|[_ G]]; [now elim (Hnp x)|eauto].
    + intros j j' x F F'. destruct (N _ _ F) as [[_ G]|[_ G]]; [now elim (Hnp x)|].
      destruct (N _ _ F') as [[_ G']|[_ G']]; [now elim (Hnp x)|eauto].
    + intros x Hx. destruct (Nat.eq_dec x i) as [->|Nx].
      * right. split.
        -- unfold done_with. cbn [slot]. unfold set_slot. rewrite Nat.eqb_refl, R. reflexivity.
        -- intros j F. destruct (N _ _ F) as [[_ G]|[Nj G]]; [now elim (Hnp i)|]. apply Nj. eapply I_uniq0; eauto.
      * destruct (I_done0 x Hx) as [(j & F & S)|[S F]].
        -- left. exists j. split; [|unfold set_slot; destruct (Nat.eqb_spec x i); [contradiction|auto]].
           apply N'; auto. intros ->. congruence.
        -- right. split; [unfold done_with in *; cbn [slot]; unfold set_slot; destruct (Nat.eqb_spec x i); [contradiction|auto]|].
           intros j G. destruct (N _ _ G) as [[_ G']|[_ G']]; [now elim (Hnp x)|exact (F j G')].
    + intros x Hx. unfold set_slot. destruct (Nat.eqb_spec x i); [subst; contradiction|auto].
    + intros x Hx D Fl. destruct (Nat.eq_dec x i) as [->|Nx].
      * rewrite R in Fl. cbn in Fl. subst ok. right. exists k. exact Nk.
      * assert (D' : done_with s x) by (unfold done_with in *; cbn [slot] in D; unfold set_slot in D; destruct (Nat.eqb_spec x i); [contradiction|exact D]).
        destruct (I_fail0 x Hx D' Fl) as [O|[j F]]; [auto|]. right. exists j. apply N'; auto. intros ->. congruence.
    + intros j F. destruct ok; subst np.
      * destruct F as [F|F]; (destruct (N _ _ F) as [[_ G]|[_ G]]; [discriminate|]); apply (I_pend0 j); auto.
      * destruct F as [F|F]; (destruct (N _ _ F) as [[_ G]|[_ G]]); try discriminate; try (apply (I_pend0 j); auto; fail).
        exists i. split; auto. now rewrite R.
    + intros j F. destruct (N _ _ F) as [[_ G]|[_ G]]; [destruct ok; discriminate|eauto].
    + pose proof (tot_upd isDone k np _ _ E). subst np. destruct ok; cbn in *; lia.
  - (* okay := false *)
    intros [= <-].
    assert (N : forall j q, nth_error (upd k StoreIdx (workers s)) j = Some q -> (j = k /\ q = StoreIdx) \/ (j <> k /\ nth_error (workers s) j = Some q)).
    { intros j q F. rewrite upd_spec in F. destruct (Nat.eqb_spec j k); [|auto]. subst. rewrite E in F. left. split; congruence. }
    assert (N' : forall j q, nth_error (workers s) j = Some q -> q <> StoreOkay -> nth_error (upd k StoreIdx (workers s)) j = Some q).
    { intros j q F Hq. rewrite upd_spec. destruct (Nat.eqb_spec j k); [|exact F]. subst. congruence. }
    destruct I. destruct (I_pend0 k) as (f & Hf & Ff); [auto|].
    split; cbn [idx okay slot workers trace]; auto; try discriminate.
    + intros j x F. destruct (N _ _ F) as [[_ G]|[_ G]]; [discriminate|eauto].
    + intros j j' x F F'. destruct (N _ _ F) as [[_ G]|[_ G]]; [discriminate|]. destruct (N _ _ F') as [[_ G']|[_ G']]; [discriminate|eauto].
    + intros x Hx. destruct (I_done0 x Hx) as [(j & F & S)|[S F]]; [left; exists j; split; auto; apply N'; auto; discriminate|].
      right. split; auto. intros j G. destruct (N _ _ G) as [[_ G']|[_ G']]; [discriminate|exact (F j G')].
    + intros _. eauto.
    + intros j _. exists f. auto.
    + pose proof (tot_upd isDone k StoreIdx _ _ E). cbn in *. lia.
  - (* idx := REPS *)
    intros [= <-].
    assert (N : forall j q, nth_error (upd k Done (workers s)) j = Some q -> (j = k /\ q = Done) \/ (j <> k /\ nth_error (workers s) j = Some q)).
    { intros j q F. rewrite upd_spec in F. destruct (Nat.eqb_spec j k); [|auto]. subst. rewrite E in F. left. split; congruence. }
    assert (N' : forall j q, nth_error (workers s) j = Some q -> q <> StoreIdx -> nth_error (upd k Done (workers s)) j = Some q).
    { intros j q F Hq. rewrite upd_spec. destruct (Nat.eqb_spec j k); [|exact F]. subst. congruence. }
    destruct I. pose proof (I_sidx0 k E) as Ok.
    split; cbn [idx okay slot workers trace]; auto.
    + intros x Hx. specialize (I_trace0 x Hx). lia.
    + intros j x F. destruct (N _ _ F) as [[_ G]|[_ G]]; [discriminate|eauto].
    + intros j j' x F F'. destruct (N _ _ F) as [[_ G]|[_ G]]; [discriminate|]. destruct (N _ _ F') as [[_ G']|[_ G']]; [discriminate|eauto].
    + intros x Hx. destruct (I_done0 x Hx) as [(j & F & S)|[S F]]; [left; exists j; split; auto; apply N'; auto; discriminate|].
      right. split; auto. intros j G. destruct (N _ _ G) as [[_ G']|[_ G']]; [discriminate|exact (F j G')].
    + intros O. congruence.
    + pose proof (tot_upd isDone k Done _ _ E). cbn in *. lia.
Qed.
Lemma exec_inv sched s s' : Inv s -> exec sched s = Some s' -> Inv s'.
Proof.
  revert s. induction sched as [|k sched IH]; cbn; intros s I; [intros [= <-]; auto|].
  destruct (step_worker k s) as [s1|] eqn:E; [|discriminate]. apply IH. eapply step_inv; eauto.
Qed.
Lemma workers_length sched s s' : exec sched s = Some s' -> length (workers s') = length (workers s).
Proof.
  revert s. induction sched as [|k sched IH]; cbn; intros s; [intros [= <-]; auto|].
  destruct (step_worker k s) as [s1|] eqn:E; [|discriminate]. intros H. rewrite (IH _ H). clear H IH.
  unfold Threads.step_worker in E. destruct (nth_error _ _) as [[|i| | |]|]; try discriminate.
  - destruct (_ <=? _)%nat; injection E as <-; apply upd_length'.
  - destruct (run i); injection E as <-; apply upd_length'.
  - injection E as <-; apply upd_length'.
  - injection E as <-; apply upd_length'.
Qed.
Lemma tot_le l : (tot isDone l <= length l)%nat.
Proof. induction l as [|p l IH]; cbn; auto. destruct p; cbn; lia. Qed.

Lemma counter_bounded n sched s : exec sched (start n) = Some s -> (idx s <= REPS + n)%nat.
Proof.
  intros H. pose proof (exec_inv _ _ _ (start_inv n) H) as I. pose proof (workers_length _ _ _ H) as L.
  cbn in L. rewrite repeat_length in L. pose proof (I_bound _ I). pose proof (tot_le (workers s)). lia.
Qed.
Lemma indices_distinct n sched s : exec sched (start n) = Some s -> NoDup (trace s) /\ Forall (fun i => (i < REPS)%nat) (trace s).
Proof.
  intros H. pose proof (exec_inv _ _ _ (start_inv n) H) as I. split; [apply I|]. apply Forall_forall. intros i Hi. now apply (I_trace _ I).
Qed.
Lemma touched n sched s i : exec sched (start n) = Some s -> slot s i <> None -> (i < REPS)%nat /\ slot s i = Some (snd (run i)).
Proof.
  intros H Hs. pose proof (exec_inv _ _ _ (start_inv n) H) as I.
  destruct (in_dec Nat.eq_dec i (trace s)) as [D|D]; [|rewrite (I_slot _ I i D) in Hs; congruence].
  split; [now apply (I_trace _ I)|]. destruct (I_done _ I i D) as [(k & _ & E)|[E _]]; [congruence|exact E].
Qed.
Lemma bounded n sched s : exec sched (start n) = Some s -> (length sched <= 4 * REPS + n)%nat.
Proof.
  intros H. apply exec_length in H. unfold measure in H. cbn [idx workers start] in H. rewrite tot_repeat in H. lia.
Qed.
Lemma progress n sched s : exec sched (start n) = Some s -> finished s \/ exists k s', (k < n)%nat /\ exec (sched ++ [k]) (start n) = Some s'.
Proof.
  intros H. destruct (Forall_Exists_dec (fun p => p = Done) (fun p => ltac:(destruct p; [right|right|right|right|left]; congruence)) (workers s)) as [F|F]; [left; exact F|right].
  apply Exists_exists in F as (p & Hp & Np). apply In_nth_error in Hp as [k Hk]. exists k.
  assert (L : (k < n)%nat).
  { pose proof (workers_length _ _ _ H) as L. cbn in L. rewrite repeat_length in L. rewrite <- L. apply nth_error_Some. congruence. }
  assert (E : exists s', step_worker k s = Some s').
  { unfold Threads.step_worker. rewrite Hk. destruct p as [|i| | |]; [destruct (_ <=? _)%nat|destruct (run i)| | |congruence]; eauto. }
  destruct E as [s' E]. exists s'. split; auto. clear - H E. revert H. generalize (@start V n) as s0.
  induction sched as [|j sched IH]; cbn; intros s0; [intros [= ->]; now rewrite E|]. destruct (step_worker j s0); [auto|discriminate].
Qed.
Lemma sequential_spec m : forall i slots, (forall j, (i <= j < i + m)%nat -> fst (run j) = true) ->
  fst (sequential run m i slots) = true /\ forall j, snd (sequential run m i slots) j = if (i <=? j)%nat && (j <? i + m)%nat then Some (snd (run j)) else slots j.
Proof.
  induction m as [|m IH]; cbn [sequential fst snd]; intros i slots H.
  - split; auto. intros j. destruct (Nat.leb_spec i j), (Nat.ltb_spec j (i + 0)); cbn; auto; lia.
  - pose proof (H i ltac:(lia)) as Hi. destruct (run i) as [ok v] eqn:R. cbn in Hi. subst ok.
    destruct (IH (S i) (set_slot slots i v)) as [A B]; [intros; apply H; lia|]. split; auto. intros j. rewrite B.
    unfold set_slot. destruct (Nat.leb_spec (S i) j), (Nat.ltb_spec j (S i + m)), (Nat.leb_spec i j), (Nat.ltb_spec j (i + S m)), (Nat.eqb_spec j i); cbn; auto; try lia; subst; now rewrite R.
Qed.
Lemma sequential_false m : forall i slots, (exists j, (i <= j < i + m)%nat /\ fst (run j) = false) -> fst (sequential run m i slots) = false.
Proof.
  induction m as [|m IH]; cbn; intros i slots (j & Hj & F); [lia|]. destruct (run i) as [ok v] eqn:R. destruct ok; [|reflexivity].
  apply IH. exists j. split; auto. destruct (Nat.eq_dec i j) as [->|]; [rewrite R in F; discriminate|lia].
Qed.
Lemma finish n sched s : (0 < n)%nat -> exec sched (start n) = Some s -> finished s ->
  okay s = fst (sequential run REPS 0 (fun _ => None)) /\
  (okay s = true -> forall i, slot s i = snd (sequential run REPS 0 (fun _ => None)) i).
Proof.
  intros Hn H F. pose proof (exec_inv _ _ _ (start_inv n) H) as I.
  assert (ND : forall k p, nth_error (workers s) k = Some p -> p = Done).
  { intros k p E. unfold finished in F. rewrite Forall_forall in F. apply F. eapply nth_error_In; eauto. }
  assert (IX : okay s = true -> (REPS <= idx s)%nat).
  { intros O. enough (G : forall sched s, exec sched (start n) = Some s -> okay s = true -> Exists (fun p => p = Done) (workers s) -> (REPS <= idx s)%nat).
    { apply (G _ _ H O). apply Exists_exists. pose proof (workers_length _ _ _ H) as L. cbn in L. rewrite repeat_length in L.
      destruct (workers s) as [|p l] eqn:W; [cbn in L; lia|]. exists p. split; [now left|]. apply (ND 0%nat). reflexivity. }
    clear - Hn. intros sched s H. assert (G : forall sc s0 s1, (okay s0 = true -> Exists (fun p => p = Done) (workers s0) -> (REPS <= idx s0)%nat) ->
      Inv s0 -> exec sc s0 = Some s1 -> okay s1 = true -> Exists (fun p => p = Done) (workers s1) -> (REPS <= idx s1)%nat).
    { clear. induction sc as [|k sc IH]; cbn; intros s0 s1 P I; [intros [= <-]; auto|].
      destruct (step_worker k s0) as [s2|] eqn:E; [|discriminate]. intros X. apply (IH s2 s1); auto; [|eapply step_inv; eauto]. clear X IH.
      unfold Threads.step_worker in E. destruct (nth_error (workers s0) k) as [p|] eqn:W; [|discriminate].
      assert (U : forall q, q <> Done -> Exists (fun p => p = Done) (upd k q (workers s0)) -> Exists (fun p => p = Done) (workers s0)).
      { intros q Hq HE. apply Exists_exists in HE as (x & Hx & ->). apply In_nth_error in Hx as [j Hj]. rewrite upd_spec in Hj.
        destruct (Nat.eqb_spec j k); [subst; rewrite W in Hj; congruence|]. apply Exists_exists. exists Done. split; auto. eapply nth_error_In; eauto. }
      destruct p as [|i| | |]; try discriminate.
      - destruct (Nat.leb_spec REPS (idx s0)); injection E as <-; cbn [okay idx workers]; intros O X; [lia|].
        apply U in X; [|discriminate]. specialize (P O X). lia.
      - destruct (run i) as [ok v]; injection E as <-; cbn [okay idx workers]; intros O X. apply U in X; auto. destruct ok; discriminate.
      - injection E as <-. cbn. discriminate.
      - injection E as <-. cbn [okay idx workers]. lia. }
    apply (G sched (start n) s); auto using start_inv. cbn. intros _ X. apply Exists_exists in X as (x & Hx & ->). apply repeat_spec in Hx. discriminate. }
  destruct (okay s) eqn:O.
  - assert (A : forall i, (i < REPS)%nat -> In i (trace s)) by (intros i Hi; apply (I_all _ I O); specialize (IX eq_refl); lia).
    assert (B : forall i, (i < REPS)%nat -> done_with s i).
    { intros i Hi. destruct (I_done _ I i (A i Hi)) as [(k & E & _)|[D _]]; [apply ND in E; discriminate|exact D]. }
    assert (C : forall i, (i < REPS)%nat -> fst (run i) = true).
    { intros i Hi. destruct (fst (run i)) eqn:X; auto. destruct (I_fail _ I i (A i Hi) (B i Hi) X) as [Y|[k Y]]; [congruence|]. apply ND in Y. discriminate. }
    destruct (sequential_spec REPS 0 (fun _ => None)) as [S1 S2]; [intros; apply C; lia|]. split; [auto|]. intros _ i. rewrite S2. cbn [Nat.leb andb].
    destruct (Nat.ltb_spec i (0 + REPS)); [apply B; lia|]. apply (I_slot _ I). intros X. apply (I_trace _ I) in X. lia.
  - split; [|discriminate]. destruct (I_okay _ I O) as (i & Hi & Fi). symmetry. apply sequential_false. exists i. split; auto.
    apply (I_trace _ I) in Hi. lia.
Qed.
Lemma handed_once n sched s : (0 < n)%nat -> exec sched (start n) = Some s -> finished s -> okay s = true ->
  forall i, (i < REPS)%nat <-> In i (trace s).
Proof.
  intros Hn H F O i. pose proof (exec_inv _ _ _ (start_inv n) H) as I. split; [|intros X; now apply (I_trace _ I)].
  intros Hi. destruct (finish n sched s Hn H F) as [_ G]. specialize (G O i).
  destruct (in_dec Nat.eq_dec i (trace s)) as [X|X]; auto. rewrite (I_slot _ I i X) in G. exfalso.
  assert (C : forall j, (j < REPS)%nat -> fst (run j) = true).
  { destruct (finish n sched s Hn H F) as [A _]. rewrite O in A. intros j Hj. destruct (fst (run j)) eqn:Y; auto.
    rewrite sequential_false in A; [discriminate|]. exists j. split; auto. lia. }
  destruct (sequential_spec REPS 0 (fun _ => None)) as [_ S2]; [intros; apply C; lia|]. rewrite S2 in G.
  cbn [Nat.leb andb] in G. destruct (Nat.ltb_spec i (0 + REPS)); [discriminate|lia].
Qed.
Lemma sequential_meaning :
  (fst (sequential run REPS 0 (fun _ => None)) = true <-> forall i, (i < REPS)%nat -> fst (run i) = true) /\
  ((forall i, (i < REPS)%nat -> fst (run i) = true) -> forall i, (i < REPS)%nat ->
     snd (sequential run REPS 0 (fun _ => None)) i = Some (snd (run i))).
Proof.
  split; [split|].
  - intros H i Hi. destruct (fst (run i)) eqn:E; auto. rewrite sequential_false in H; [discriminate|]. exists i. split; auto. lia.
  - intros H. apply sequential_spec. intros; apply H; lia.
  - intros H i Hi. destruct (sequential_spec REPS 0 (fun _ => None)) as [_ S2]; [intros; apply H; lia|]. rewrite S2.
    cbn [Nat.leb andb]. destruct (Nat.ltb_spec i (0 + REPS)); [reflexivity|lia].
Qed.
End P.
