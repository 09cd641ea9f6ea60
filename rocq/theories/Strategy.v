(** The strategy loop of Isogeny_A and Isogeny_B: it stays inside its arrays and computes the step-by-step chain.
    Everything about curves and points is a parameter here. *)
From Verif Require Import Base Out Params Ops Ec Models.
Set Bullet Behavior "Strict Subproofs".

(** The loop on indices only; [None] or [false] when it would leave its arrays or miss a kernel point. *)
Section Index.
Variables (maxr maxint : nat).
Fixpoint sdesc (fuel bound index : nat) (stack strat : list nat) : option (nat * list nat * list nat) :=
  if (index <? bound)%nat then
    match fuel with
    | 0%nat => None
    | S fuel =>
        if (length stack <? maxint)%nat then
          match strat with [] => None | m :: strat => sdesc fuel bound (index + m) (index :: stack) strat end
        else None
    end
  else Some (index, stack, strat).
Fixpoint srows (k row index : nat) (stack strat : list nat) : bool :=
  match k with
  | 0%nat => (index =? 0)%nat
  | S k =>
      match sdesc (S maxint) (maxr - row) index stack strat with
      | None => false
      | Some (index, stack, strat) =>
          (index =? maxr - row)%nat && match stack with [] => false | index :: stack => srows k (S row) index stack strat end
      end
  end.
Definition strat_ok (strat : list nat) : bool := (1 <=? maxr)%nat && srows (maxr - 1) 1 0 [] strat.
End Index.

Section Loop.
Variable O : fops.
Variables (C co : Type).
Variable mulm : C -> nat -> pt O -> pt O.
Variable get : pt O -> C * co.
Variable ev : co -> pt O -> pt O.
Variables (maxr maxint : nat).
Notation descend := (descend O C mulm maxint). Notation rows := (rows O C co mulm get ev maxr maxint).

Lemma descend_index fuel c bound : forall index R stack strat,
  match sdesc maxint fuel bound index (map snd stack) strat with
  | Some (i, s, t) => exists R' stack', descend fuel c bound index R stack strat = Ok (i, R', stack', t) /\ map snd stack' = s
  | None => True
  end.
Proof.
  induction fuel as [|fuel IH]; intros index R stack strat; cbn [sdesc Models.descend]; destruct (index <? bound)%nat; eauto; rewrite ?map_length; eauto.
  destruct (length stack <? maxint)%nat; auto. destruct strat as [|m strat]; auto.
  specialize (IH (index + m)%nat (mulm c m R) ((R, index) :: stack) strat). exact IH.
Qed.
(** Memory safety for all field operations and points. *)
Lemma rows_safe k : forall row c index R Q stack strat, srows maxr maxint k row index (map snd stack) strat = true ->
  exists r, rows k row c index R Q stack strat = Ok r.
Proof.
  induction k as [|k IH]; intros row c index R Q stack strat; cbn [srows Models.rows]; [eauto|].
  pose proof (descend_index (S maxint) c (maxr - row) index R stack strat) as H.
  destruct (sdesc maxint (S maxint) (maxr - row) index (map snd stack) strat) as [[[i s] t]|]; [|discriminate].
  destruct H as (R' & stack' & -> & <-). cbn [bind]. destruct (get R') as [c' coeff].
  destruct stack' as [|[R1 i1] stack']; cbn [map snd fst]; intros H; [now rewrite andb_false_r in H|].
  apply andb_prop in H as [_ H]. apply IH. rewrite map_map. cbn [snd]. exact H.
Qed.
Lemma traverse_safe c R Q strat : strat_ok maxr maxint strat = true -> exists r, traverse O C co mulm get ev maxr maxint c R Q strat = Ok r.
Proof. intros H. apply andb_prop in H as [_ H]. apply rows_safe. exact H. Qed.

(** ** The meaning *)
Variables (X A K : Type).
Variable step : A -> X -> X.      (* multiplication by the degree *)
Variable pk : K -> X.             (* the point with coordinate k *)
Variable cod : A -> K -> A.       (* codomain of the isogeny with kernel k *)
Variable phi : K -> X -> X.
Variable ker : A -> K -> Prop.
Variable crel : C -> A -> Prop.
Variable rp : pt O -> X -> Prop.
Variable ord : nat -> A -> X -> Prop.
Hypothesis H1 : forall c a m R q, crel c a -> rp R q -> rp (mulm c m R) (Nat.iter m (step a) q).
Hypothesis H2 : forall c a k R, crel c a -> ker a k -> rp R (pk k) -> crel (fst (get R)) (cod a k) /\
  (forall S q, rp S q -> rp (ev (snd (get R)) S) (phi k q)).
Hypothesis H3 : forall c a k q, crel c a -> ker a k -> phi k (step a q) = step (cod a k) (phi k q).
Hypothesis H4 : forall c a n q, crel c a -> ord (S n) a q -> exists k, Nat.iter n (step a) q = pk k /\ ker a k.
Hypothesis H5 : forall c a n q k, crel c a -> ord (S (S n)) a q -> Nat.iter (S n) (step a) q = pk k -> ker a k -> ord (S n) (cod a k) (phi k q).

(** n steps from the curve a with a kernel of order degree^n generated by q *)
Inductive walk : nat -> A -> X -> A -> list K -> Prop :=
| walk_0 a q : walk 0 a q a []
| walk_S n a q k a' ks : Nat.iter n (step a) q = pk k -> ker a k -> walk n (cod a k) (phi k q) a' ks -> walk (S n) a q a' (k :: ks).
Definition image (ks : list K) (r : X) : X := fold_left (fun r k => phi k r) ks r.
Definition orel (Q : option (pt O)) (r : X) : Prop := match Q with Some P => rp P r | None => True end.

Lemma iter_phi c a k n q : crel c a -> ker a k -> phi k (Nat.iter n (step a) q) = Nat.iter n (step (cod a k)) (phi k q).
Proof. intros Hc Hk. induction n as [|n IH]; [reflexivity|]. cbn. rewrite (H3 c) by auto. f_equal. exact IH. Qed.
Lemma iter_plus {T} (f : T -> T) m n x : Nat.iter (m + n) f x = Nat.iter m f (Nat.iter n f x).
Proof. induction m as [|m IH]; [reflexivity|]. cbn. f_equal. exact IH. Qed.
Definition entry (a : A) (q : X) (s : pt O * nat) : Prop := rp (fst s) (Nat.iter (snd s) (step a) q).
Lemma descend_ok fuel c a q bound : crel c a -> forall index R stack strat i R' stack' t,
  rp R (Nat.iter index (step a) q) -> Forall (entry a q) stack -> descend fuel c bound index R stack strat = Ok (i, R', stack', t) ->
  rp R' (Nat.iter i (step a) q) /\ Forall (entry a q) stack'.
Proof.
  intros Hc. induction fuel as [|fuel IH]; intros index R stack strat i R' stack' t HR HS; cbn [Models.descend];
    destruct (index <? bound)%nat; try discriminate; try (intros E; injection E as <- <- <- <-; auto).
  destruct (length stack <? maxint)%nat; [|discriminate]. destruct strat as [|m strat]; [discriminate|]. intros E.
  apply (IH _ _ _ _ _ _ _ _) in E; auto.
  rewrite Nat.add_comm, iter_plus. apply H1; auto.
Qed.
Lemma rows_ok k : forall row c a index R Q r q stack strat, (row + k = maxr)%nat -> crel c a -> ord (S k) a q ->
  rp R (Nat.iter index (step a) q) -> orel Q r -> Forall (entry a q) stack -> srows maxr maxint k row index (map snd stack) strat = true ->
  exists c' R' Q' a' k1 ks, rows k row c index R Q stack strat = Ok (c', R', Q') /\ crel c' a' /\ ker a' k1 /\ rp R' (pk k1) /\
    orel Q' (image ks r) /\ walk (S k) a q (cod a' k1) (ks ++ [k1]) /\
    walk k a (step a q) a' ks /\ image ks q = pk k1 /\ (Q = None -> Q' = None) /\ (Q <> None -> Q' <> None).
Proof.
  induction k as [|k IH]; intros row c a index R Q r q stack strat Hrow Hc Ho HR HQ HS; cbn [srows Models.rows].
  - intros E. apply Nat.eqb_eq in E as ->. destruct (H4 c a 0 q Hc Ho) as (k1 & E1 & Hk).
    exists c, R, Q, a, k1, []. repeat split; auto.
    + rewrite <- E1. exact HR.
    + constructor; auto. constructor.
    + constructor.
  - pose proof (descend_index (S maxint) c (maxr - row) index R stack strat) as H.
    destruct (sdesc maxint (S maxint) (maxr - row) index (map snd stack) strat) as [[[i s] t]|]; [|discriminate].
    destruct H as (R' & stack' & E & <-). rewrite E. cbn [bind].
    destruct (descend_ok _ c a q _ Hc _ _ _ _ _ _ _ _ HR HS E) as [HR' HS']. intros HH. apply andb_prop in HH as [Hi HH]. apply Nat.eqb_eq in Hi.
    assert (i = S k) by lia. subst i. destruct (H4 c a (S k) q Hc Ho) as (k1 & E1 & Hk).
    assert (HRk : rp R' (pk k1)) by (rewrite <- E1, <- H; exact HR').
    destruct (H2 c a k1 R' Hc Hk HRk) as [Hc' Hev]. destruct (get R') as [c' coeff]. cbn [fst snd] in Hc', Hev.
    destruct stack' as [|[R1 i1] stack']; [discriminate|]. cbn [map fst snd] in HH |- *.
    inversion HS' as [|? ? HS1 HS2]; subst. unfold entry in HS1. cbn [fst snd] in HS1.
    destruct (IH (S row) c' (cod a k1) i1 (ev coeff R1) (omap O (ev coeff) Q) (phi k1 r) (phi k1 q)
                (map (fun s => (ev coeff (fst s), snd s)) stack') t) as (c2 & R2 & Q2 & a2 & k2 & ks & G1 & G2 & G3 & G4 & G5 & G6 & G9 & G10 & G7 & G8); auto.
    + lia.
    + apply (H5 c a k q k1); auto.
    + rewrite <- (iter_phi c) by auto. apply Hev. exact HS1.
    + destruct Q; cbn; auto.
    + apply Forall_map. revert HS2. apply Forall_impl. intros [R3 i3] H3'. unfold entry in *. cbn [fst snd] in *.
      rewrite <- (iter_phi c) by auto. now apply Hev.
    + rewrite map_map. exact HH.
    + exists c2, R2, Q2, a2, k2, (k1 :: ks). repeat split; auto.
      * cbn [app]. constructor; auto.
      * constructor; auto.
        -- rewrite <- E1. replace (S k) with (k + 1)%nat by lia. now rewrite iter_plus.
        -- rewrite (H3 c) by auto. exact G9.
      * intros ->. apply G7. reflexivity.
      * intros N. apply G8. destruct Q; [discriminate|congruence].
Qed.
Lemma traverse_ok c a R Q r q strat : strat_ok maxr maxint strat = true -> crel c a -> ord maxr a q -> rp R q -> orel Q r ->
  exists c' R' Q' a' k1 ks, traverse O C co mulm get ev maxr maxint c R Q strat = Ok (c', R', Q') /\ crel c' a' /\ ker a' k1 /\ rp R' (pk k1) /\
    orel Q' (image ks r) /\ walk maxr a q (cod a' k1) (ks ++ [k1]) /\
    walk (maxr - 1) a (step a q) a' ks /\ image ks q = pk k1 /\ (Q = None -> Q' = None) /\ (Q <> None -> Q' <> None).
Proof.
  intros H Hc Ho HR HQ. apply andb_prop in H as [Hm H]. apply Nat.leb_le in Hm. unfold traverse.
  assert (E : S (maxr - 1) = maxr) by lia.
  pose proof (rows_ok (maxr - 1) 1 c a 0 R Q r q [] strat) as G. rewrite E in G. apply G; auto.
Qed.
End Loop.
