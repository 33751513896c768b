(** C28: the connections of an account. *)
From Verif Require Import Base SrvModel ConnModel.

(** * Specification *)

(** After these steps, from the start. *)
Definition reach (h : house) : Prop := exists l, steps empty_house l = Some h.

(** The connection has made the account online and not taken it offline. *)
Definition holds (c : conn) : bool :=
  match k_at c with
  | Reg | Listing | Reading | Sending | Freeing | Leaving | Lost => true
  | Knock | Kick | Unreg | Gone => false
  end.

(** The handler waits for room in the queue of a writer that is dead, or whose
    connection is dead while it writes; or it waits for the notifier, which does. *)
Definition doomed (c : conn) : Prop :=
  k_queue c = 32 /\ (k_writer c = WDead \/ (k_writer c = WBusy /\ k_closed c = true)) /\
  (k_at c = Sending \/ (k_at c = Freeing /\ k_free c = 32 /\ k_ntfn c = NHold)).
Definition hopeless (c : conn) : Prop := k_at c = Lost \/ doomed c.

(** * Proof *)

Lemma nth_put {A} (l : list A) : forall i j x,
  nth_error (put i x l) j = if Nat.eqb j i then (if Nat.ltb i (length l) then Some x else None) else nth_error l j.
Proof.
  induction l as [|y l IH]; intros [|i] [|j] x; cbn; auto.
  - destruct (Nat.eqb j i); auto.
  - rewrite IH. destruct (Nat.eqb j i); auto.
Qed.
Lemma length_put {A} (l : list A) : forall i x, length (put i x l) = length l.
Proof. induction l; intros [|i] x; cbn; auto. Qed.
Lemma nth_put_eq {A} (l : list A) i x c : nth_error l i = Some c -> nth_error (put i x l) i = Some x.
Proof. intros H. rewrite nth_put, Nat.eqb_refl. assert (i < length l) by (apply nth_error_Some; congruence). now destruct (Nat.ltb_spec i (length l)); [|lia]. Qed.
Lemma nth_put_ne {A} (l : list A) i j x : j <> i -> nth_error (put i x l) j = nth_error l j.
Proof. intros H. rewrite nth_put. now destruct (Nat.eqb_spec j i). Qed.

Lemma steps_app h l1 : forall l2, steps h (l1 ++ l2) = match steps h l1 with Some h1 => steps h1 l2 | None => None end.
Proof. revert h. induction l1 as [|a l1 IH]; intros h l2; cbn; auto. destruct (step h a); auto. Qed.
Lemma reach_steps h l h' : reach h -> steps h l = Some h' -> reach h'.
Proof. intros [l0 R] S. exists (l0 ++ l). now rewrite steps_app, R. Qed.

Definition inv (h : house) : Prop :=
  (forall i c, nth_error (h_conns h) i = Some c -> (holds c = true <-> h_online h = Some i)) /\
  (forall i, h_online h = Some i -> i < length (h_conns h)) /\
  (forall o, h_entry h = Some o -> o < length (h_conns h)) /\
  (forall i c, nth_error (h_conns h) i = Some c -> k_queue c <= 32 /\ k_free c <= 32).

Lemma inv_holder h i c : inv h -> nth_error (h_conns h) i = Some c -> holds c = true -> h_online h = Some i.
Proof. intros I G H. now apply (proj1 I i c). Qed.

(** Replacing one connection by one that holds the account as before. *)
Lemma inv_put h i c c' : inv h -> nth_error (h_conns h) i = Some c -> holds c' = holds c ->
  k_queue c' <= 32 -> k_free c' <= 32 -> inv (set_conn h i c').
Proof.
  intros (I1 & I2 & I3 & I4) G E Q F. unfold inv, set_conn; cbn [h_online h_entry h_conns]. rewrite length_put.
  split; [|split; [auto|split; [auto|]]]; intros j d D; (destruct (Nat.eqb_spec j i) as [->|N];
    [rewrite (nth_put_eq _ _ _ _ G) in D; injection D as <-|rewrite nth_put_ne in D by auto]).
  - rewrite E. now apply I1.
  - now apply I1.
  - auto.
  - eauto.
Qed.

Lemma inv_entry h e : inv h -> (forall o, e = Some o -> o < length (h_conns h)) -> inv (mkHouse (h_online h) e (h_conns h)).
Proof. intros (I1 & I2 & I3 & I4) E. unfold inv. cbn. auto. Qed.

Lemma inv_step h a h' : inv h -> step h a = Some h' -> inv h'.
Proof.
  intros I S. pose proof I as (I1 & I2 & I3 & I4).
  destruct a as [|i|i|i|i ok|i|i|i|i|i|i|i|i|i|i|i|i|i|]; cbn [step] in S.
  1:{ injection S as <-. unfold inv. cbn [h_online h_entry h_conns]. rewrite app_length. cbn [length].
    assert (N : forall i c, nth_error (h_conns h ++ [new_conn]) i = Some c -> nth_error (h_conns h) i = Some c \/ (c = new_conn /\ i = length (h_conns h))).
    { intros i c G. destruct (Nat.ltb_spec i (length (h_conns h))) as [L|L]; [rewrite nth_error_app1 in G by auto; auto|].
      rewrite nth_error_app2 in G by auto. destruct (i - length (h_conns h)) as [|n] eqn:D; [|destruct n; discriminate]. injection G as <-. right. split; auto. lia. }
    split; [|split; [|split]].
    - intros i c G. apply N in G as [G|[-> ->]]; [now apply I1|]. split; [discriminate|]. intros H. apply I2 in H. lia.
    - intros i H. apply I2 in H. lia.
    - intros i H. apply I3 in H. lia.
    - intros i c G. apply N in G as [G|[-> ->]]; eauto. cbn. lia. }
  18:{ destruct (h_entry h) as [o|]; [|now injection S as <-]. destruct (nth_error (h_conns h) o) as [c|] eqn:G; [|discriminate].
    injection S as <-. pose proof (I4 _ _ G). eapply inv_put; eauto; cbn; tauto. }
  all: destruct (nth_error (h_conns h) i) as [c|] eqn:G; [|discriminate]; pose proof (I4 _ _ G) as [Q F].
  - (* online *) destruct (k_at c) eqn:K; try discriminate. destruct (h_online h) as [o|] eqn:O; injection S as <-.
    + eapply inv_put; eauto; cbn; auto. unfold holds. now rewrite K.
    + unfold inv. cbn [h_online h_entry h_conns]. rewrite length_put. assert (L : i < length (h_conns h)) by (apply nth_error_Some; congruence).
      split; [|split; [congruence|split; [auto|]]]; intros j d D; (destruct (Nat.eqb_spec j i) as [->|N];
        [rewrite (nth_put_eq _ _ _ _ G) in D; injection D as <-|rewrite nth_put_ne in D by auto]).
      * split; auto.
      * split; [|congruence]. intros H. apply (I1 _ _ D) in H. discriminate.
      * auto.
      * eauto.
  - (* kick *) destruct (k_at c) eqn:K; try discriminate.
    assert (I' : inv (set_conn h i (at_ c Gone))) by (eapply inv_put; eauto; unfold holds; cbn; now rewrite K).
    assert (J : inv (mkHouse (h_online h) None (put i (at_ c Gone) (h_conns h)))).
    { apply (inv_entry (set_conn h i (at_ c Gone)) None I'). discriminate. }
    destruct (h_entry h) as [o|]; [|injection S as <-; exact J].
    destruct (nth_error (put i (at_ c Gone) (h_conns h)) o) as [d|] eqn:D; injection S as <-; [|exact J].
    pose proof (proj2 (proj2 (proj2 J)) o d D) as [? ?]. apply (inv_put _ o d (close d) J); auto.
  - (* reg *) destruct (k_at c) eqn:K; try discriminate. injection S as <-.
    assert (I' : inv (set_conn h i (at_ c Listing))) by (eapply inv_put; eauto; unfold holds; cbn; now rewrite K).
    apply (inv_entry (set_conn h i (at_ c Listing)) (Some i) I'). intros o E. injection E as <-. cbn. rewrite length_put. apply nth_error_Some. congruence.
  - destruct (k_at c) eqn:K; try discriminate. injection S as <-. eapply inv_put; eauto. unfold holds; cbn; rewrite K; now destruct ok.
  - destruct (k_at c) eqn:K; try discriminate. destruct (k_closed c); try discriminate. injection S as <-. eapply inv_put; eauto. unfold holds; cbn; now rewrite K.
  - destruct (k_at c) eqn:K; try discriminate. destruct (k_closed c); try discriminate. injection S as <-. eapply inv_put; eauto. unfold holds; cbn; now rewrite K.
  - destruct (k_at c) eqn:K; try discriminate. destruct (Nat.ltb_spec (k_queue c) 32); try discriminate. injection S as <-. eapply inv_put; eauto. unfold holds; cbn; now rewrite K.
  - destruct (k_at c) eqn:K; try discriminate. destruct (Nat.ltb_spec (k_free c) 32); try discriminate. injection S as <-. eapply inv_put; eauto. unfold holds; cbn; now rewrite K.
  - destruct (k_at c) eqn:K; try discriminate; destruct (k_ntfn c); try discriminate; destruct (k_free c) eqn:Ef; try discriminate; injection S as <-;
      (eapply inv_put; eauto; [unfold holds; cbn; now rewrite K|cbn; lia]).
  - destruct (k_ntfn c) eqn:K; try discriminate. destruct (Nat.ltb_spec (k_queue c) 32); try discriminate. injection S as <-. eapply inv_put; eauto.
  - destruct (k_writer c) eqn:K; try discriminate. destruct (k_queue c) eqn:Eq; try discriminate. injection S as <-. eapply inv_put; eauto. cbn. lia.
  - destruct (k_writer c) eqn:K; try discriminate. destruct (k_closed c); try discriminate. injection S as <-. eapply inv_put; eauto.
  - destruct (k_writer c) eqn:K; try discriminate. injection S as <-. eapply inv_put; eauto.
  - injection S as <-. eapply inv_put; eauto.
  - destruct (k_at c) eqn:K; try discriminate. injection S as <-. eapply inv_put; eauto. unfold holds; cbn; now rewrite K.
  - (* offline *) destruct (k_at c) eqn:K; try discriminate. injection S as <-.
    assert (O : h_online h = Some i) by (apply (I1 _ _ G); unfold holds; now rewrite K).
    unfold inv. cbn [h_online h_entry h_conns]. rewrite length_put.
    split; [|split; [discriminate|split; [auto|]]]; intros j d D; (destruct (Nat.eqb_spec j i) as [->|N];
      [rewrite (nth_put_eq _ _ _ _ G) in D; injection D as <-|rewrite nth_put_ne in D by auto]).
    + split; discriminate.
    + split; [|discriminate]. intros H. apply (I1 _ _ D) in H. congruence.
    + auto.
    + eauto.
  - destruct (k_at c) eqn:K; try discriminate. injection S as <-.
    assert (I' : inv (set_conn h i (at_ c Gone))) by (eapply inv_put; eauto; unfold holds; cbn; now rewrite K).
    apply (inv_entry (set_conn h i (at_ c Gone)) None I'). discriminate.
Qed.

Lemma inv_empty : inv empty_house.
Proof. repeat split; intros; try discriminate; destruct i; discriminate. Qed.

Lemma inv_steps l : forall h h', inv h -> steps h l = Some h' -> inv h'.
Proof. induction l as [|a l IH]; intros h h' I S; cbn in S; [now injection S as <-|]. destruct (step h a) as [h1|] eqn:E; [|discriminate]. apply (IH h1); auto. eapply inv_step; eauto. Qed.

Lemma reach_inv h : reach h -> inv h.
Proof. intros [l R]. eapply inv_steps; eauto using inv_empty. Qed.

(** * C28 *)

(** For every interleaving, at most one connection holds the account, and the
    account is online exactly while one does. *)
Theorem C28_one h : reach h ->
  (forall i j c d, nth_error (h_conns h) i = Some c -> nth_error (h_conns h) j = Some d ->
     holds c = true -> holds d = true -> i = j) /\
  (h_online h <> None <-> exists i c, nth_error (h_conns h) i = Some c /\ holds c = true).
Proof.
  intros R. apply reach_inv in R as (I1 & I2 & _). split; [|split].
  - intros i j c d C D Hc Hd. apply (I1 _ _ C) in Hc. apply (I1 _ _ D) in Hd. congruence.
  - intros N. destruct (h_online h) as [i|]; [|contradiction]. destruct (nth_error (h_conns h) i) as [c|] eqn:G.
    + exists i, c. split; auto. now apply (I1 _ _ G).
    + apply nth_error_None in G. specialize (I2 i eq_refl). lia.
  - intros (i & c & G & H) E. apply (I1 _ _ G) in H. congruence.
Qed.
Print Assumptions C28_one.

(** A login succeeds exactly if no connection holds the account. *)
Theorem C28_login h j c : reach h -> nth_error (h_conns h) j = Some c -> k_at c = Knock ->
  exists h' c', step h (AOnline j) = Some h' /\ nth_error (h_conns h') j = Some c' /\
    (holds c' = true <-> forall i d, nth_error (h_conns h) i = Some d -> holds d = false) /\
    (holds c' = false -> k_at c' = Kick /\ forall i, i <> j -> nth_error (h_conns h') i = nth_error (h_conns h) i).
Proof.
  intros R G K. pose proof (C28_one h R) as [_ O]. cbn [step]. rewrite G, K. destruct (h_online h) as [o|].
  - eexists _, (at_ c Kick). split; [reflexivity|]. cbn [h_conns set_conn]. split; [eapply nth_put_eq; eauto|]. split.
    + split; [discriminate|]. intros A. exfalso. destruct (proj1 O) as (i & d & D & H); [discriminate|]. rewrite (A _ _ D) in H. discriminate.
    + intros _. split; auto. intros i N. now apply nth_put_ne.
  - eexists _, (at_ c Reg). split; [reflexivity|]. cbn [h_conns]. split; [eapply nth_put_eq; eauto|]. split.
    + split; [|auto]. intros _ i d D. destruct (holds d) eqn:H; auto. exfalso. apply (proj2 O); eauto.
    + discriminate.
Qed.
Print Assumptions C28_login.

Lemma closed_stays l : forall h h' o d, steps h l = Some h' -> nth_error (h_conns h) o = Some d -> k_closed d = true ->
  exists d', nth_error (h_conns h') o = Some d' /\ k_closed d' = true.
Proof.
  induction l as [|a l IH]; intros h h' o d S G C; cbn in S; [injection S as <-; eauto|].
  destruct (step h a) as [h1|] eqn:E; [|discriminate].
  assert (P : forall i (c c' : conn), nth_error (h_conns h) i = Some c -> (k_closed c = true -> k_closed c' = true) ->
    exists d', nth_error (put i c' (h_conns h)) o = Some d' /\ k_closed d' = true).
  { intros i c c' Gc Cc. destruct (Nat.eqb_spec o i) as [->|N]; [|rewrite nth_put_ne by auto; eauto].
    rewrite (nth_put_eq _ _ _ _ Gc). exists c'. split; auto. apply Cc. congruence. }
  assert (X : exists d', nth_error (h_conns h1) o = Some d' /\ k_closed d' = true).
  { destruct a as [|i|i|i|i ok|i|i|i|i|i|i|i|i|i|i|i|i|i|]; cbn [step] in E.
    1:{ injection E as <-. exists d. cbn. split; auto. rewrite nth_error_app1; auto. apply nth_error_Some. congruence. }
    18:{ destruct (h_entry h) as [q|]; [|injection E as <-; eauto]. destruct (nth_error (h_conns h) q) eqn:Gq; [|discriminate].
      injection E as <-. eapply P; eauto. }
    all: destruct (nth_error (h_conns h) i) as [c|] eqn:Gi; [|discriminate].
    2:{ destruct (k_at c); try discriminate. destruct (P i c (at_ c Gone) Gi) as (d1 & G1 & C1); [auto|].
      destruct (h_entry h) as [q|]; [|injection E as <-; eauto].
      destruct (nth_error (put i (at_ c Gone) (h_conns h)) q) as [e|] eqn:Gq; injection E as <-; cbn [h_conns]; [|eauto].
      destruct (Nat.eqb_spec o q) as [->|N]; [rewrite (nth_put_eq _ _ _ _ Gq); exists (close e); auto|rewrite nth_put_ne by auto; eauto]. }
    all: repeat match type of E with
      | match k_at ?x with _ => _ end = _ => destruct (k_at x); try discriminate E
      | match k_closed ?x with _ => _ end = _ => destruct (k_closed x) eqn:?; try discriminate E
      | match k_writer ?x with _ => _ end = _ => destruct (k_writer x); try discriminate E
      | match k_ntfn ?x with _ => _ end = _ => destruct (k_ntfn x); try discriminate E
      | match k_free ?x with _ => _ end = _ => destruct (k_free x); try discriminate E
      | match k_queue ?x with _ => _ end = _ => destruct (k_queue x); try discriminate E
      | match h_online ?x with _ => _ end = _ => destruct (h_online x)
      | (if ?b then _ else _) = _ => destruct b; try discriminate E
      end; injection E as <-; cbn [h_conns set_conn]; eapply P; eauto; cbn; congruence. }
  destruct X as (d' & G' & C'). eapply IH; eauto.
Qed.

(** A refused second login closes the registered connection, which from then on
    handles no message. *)
Theorem C28_second h j c o : reach h -> nth_error (h_conns h) j = Some c -> k_at c = Kick -> h_entry h = Some o ->
  exists h', step h (AKick j) = Some h' /\ h_entry h' = None /\ h_online h' = h_online h /\
    forall l h2, steps h' l = Some h2 ->
      (exists d, nth_error (h_conns h2) o = Some d /\ k_closed d = true) /\
      step h2 (ARequest o) = None /\ step h2 (AAck o) = None.
Proof.
  intros R G K E. pose proof (reach_inv _ R) as (_ & _ & I3 & _). cbn [step]. rewrite G, K, E.
  assert (L : o < length (put j (at_ c Gone) (h_conns h))) by (rewrite length_put; auto).
  apply nth_error_Some in L. destruct (nth_error (put j (at_ c Gone) (h_conns h)) o) as [d|] eqn:D; [|contradiction].
  eexists. split; [reflexivity|]. split; [reflexivity|]. split; [reflexivity|]. intros l h2 S.
  destruct (closed_stays _ _ _ o (close d) S) as (d' & G' & C'); [cbn [h_conns]; eapply nth_put_eq; eauto|reflexivity|].
  split; [eauto|]. cbn [step]. rewrite G', C'. now destruct (k_at d').
Qed.
Print Assumptions C28_second.

(** ** When the account can be used again *)

Lemma doomed_step h a h' i c : inv h -> step h a = Some h' -> nth_error (h_conns h) i = Some c -> hopeless c ->
  exists c', nth_error (h_conns h') i = Some c' /\ hopeless c'.
Proof.
  intros I E G H.
  assert (P : forall k (d d' : conn), nth_error (h_conns h) k = Some d -> (k = i -> hopeless d -> hopeless d') ->
    exists c', nth_error (put k d' (h_conns h)) i = Some c' /\ hopeless c').
  { intros k d d' Gk Hk. destruct (Nat.eqb_spec i k) as [->|N]; [|rewrite nth_put_ne by auto; eauto].
    rewrite (nth_put_eq _ _ _ _ Gk). exists d'. split; auto. apply Hk; auto. congruence. }
  assert (Cl : forall d, hopeless d -> hopeless (close d)).
  { intros d [L|(Q & W & A)]; [now left|]. right. split; [exact Q|]. split; [|exact A]. cbn. tauto. }
  assert (Bad : forall d, hopeless d -> k_at d <> Lost -> k_at d = Sending \/ k_at d = Freeing) by (intros d [L|(_ & _ & [A|A])] N; tauto).
  destruct a as [|k|k|k|k ok|k|k|k|k|k|k|k|k|k|k|k|k|k|]; cbn [step] in E.
  1:{ injection E as <-. exists c. cbn. split; auto. rewrite nth_error_app1; auto. apply nth_error_Some. congruence. }
  18:{ destruct (h_entry h) as [q|]; [|injection E as <-; eauto]. destruct (nth_error (h_conns h) q) eqn:Gq; [|discriminate].
    injection E as <-. eapply P; eauto. }
  all: destruct (nth_error (h_conns h) k) as [d|] eqn:Gk; [|discriminate].
  2:{ destruct (k_at d) eqn:K; try discriminate. destruct (P k d (at_ d Gone) Gk) as (d1 & G1 & C1).
    { intros _ X. destruct (Bad d X); congruence. }
    destruct (h_entry h) as [q|]; [|injection E as <-; eauto].
    destruct (nth_error (put k (at_ d Gone) (h_conns h)) q) as [e|] eqn:Gq; injection E as <-; cbn [h_conns]; [|eauto].
    destruct (Nat.eqb_spec i q) as [->|N]; [|rewrite nth_put_ne by auto; eauto].
    rewrite (nth_put_eq _ _ _ _ Gq). exists (close e). split; auto. apply Cl. congruence. }
  all: repeat match type of E with
    | match k_at ?x with _ => _ end = _ => destruct (k_at x) eqn:?; try discriminate E
    | match k_closed ?x with _ => _ end = _ => destruct (k_closed x) eqn:?; try discriminate E
    | match k_writer ?x with _ => _ end = _ => destruct (k_writer x) eqn:?; try discriminate E
    | match k_ntfn ?x with _ => _ end = _ => destruct (k_ntfn x) eqn:?; try discriminate E
    | match k_free ?x with _ => _ end = _ => destruct (k_free x) eqn:?; try discriminate E
    | match k_queue ?x with _ => _ end = _ => destruct (k_queue x) eqn:?; try discriminate E
    | match h_online ?x with _ => _ end = _ => destruct (h_online x)
    | (if Nat.ltb ?x ?y then _ else _) = _ => destruct (Nat.ltb_spec x y); try discriminate E
    end; injection E as <-; cbn [h_conns set_conn]; eapply P; eauto; intros _ X;
    try (exfalso; destruct (Bad d X); congruence);
    try (destruct X as [L|(Q & W & A)]; [first [left; cbn; congruence | exfalso; congruence]|];
         first [ exfalso; destruct A as [A|(A & A1 & A2)]; [congruence|]; congruence
               | exfalso; destruct W as [W|[W W1]]; congruence
               | exfalso; lia
               | right; split; [cbn; congruence|]; split; [cbn; tauto|]; cbn; destruct A as [A|(A & A1 & A2)]; [left; congruence|first [right; repeat split; congruence|exfalso; congruence]] ]).
  all: exfalso; destruct X as [L|(Q & W & [A|(A & A1 & A2)])]; [congruence|congruence|lia].
Qed.

Lemma hopeless_steps l : forall h h' i c, inv h -> steps h l = Some h' -> nth_error (h_conns h) i = Some c -> hopeless c ->
  exists c', nth_error (h_conns h') i = Some c' /\ hopeless c'.
Proof.
  induction l as [|a l IH]; intros h h' i c I S G H; cbn in S; [injection S as <-; eauto|].
  destruct (step h a) as [h1|] eqn:E; [|discriminate]. destruct (doomed_step _ _ _ _ _ I E G H) as (c1 & G1 & H1).
  apply (IH h1 h' i c1); auto. eapply inv_step; eauto.
Qed.

Lemma hopeless_holds c : hopeless c -> holds c = true.
Proof. unfold holds. intros [->|(_ & _ & [->|(-> & _)])]; auto. Qed.

(** The steps a connection takes by itself, its client and its mail: no new
    connection, no login, no request. *)
Definition own (a : act) : bool :=
  match a with AConnect | AOnline _ | AKick _ | ARequest _ | AAck _ | ADrop _ | AWFail _ | ADisable | AList _ false => false | _ => true end.

Definition ends (h : house) (i : nat) : Prop := exists l h' c',
  steps h l = Some h' /\ h_conns h' = put i c' (h_conns h) /\ k_at c' = Gone /\ forallb own l = true.

Lemma put_put {A} (l : list A) : forall i x y, put i x (put i y l) = put i x l.
Proof. induction l; intros [|i] x y; cbn; f_equal; auto. Qed.

Lemma ends_step h a h1 i c1 : step h a = Some h1 -> h_conns h1 = put i c1 (h_conns h) -> own a = true -> ends h1 i -> ends h i.
Proof.
  intros S C O (l & h' & c' & R & D & K & F). exists (a :: l), h', c'. cbn [steps forallb]. rewrite S, O. repeat split; auto.
  now rewrite D, C, put_put.
Qed.

Lemma nth_put_c h i c c1 h1 : nth_error (h_conns h) i = Some c -> h_conns h1 = put i c1 (h_conns h) -> nth_error (h_conns h1) i = Some c1.
Proof. intros G ->. eapply nth_put_eq; eauto. Qed.

Lemma unreg_ends h i c : nth_error (h_conns h) i = Some c -> k_at c = Unreg -> ends h i.
Proof.
  intros G K. eexists [AUnreg i], _, (at_ c Gone). cbn [steps step]. rewrite G, K. split; [reflexivity|]. now repeat split.
Qed.
Lemma leaving_ends h i c : nth_error (h_conns h) i = Some c -> k_at c = Leaving -> ends h i.
Proof.
  intros G K. eapply (ends_step h (AOffline i)); [cbn [step]; rewrite G, K; reflexivity|reflexivity|reflexivity|].
  eapply unreg_ends; [eapply nth_put_c; eauto; reflexivity|reflexivity].
Qed.
Lemma reading_ends h i c : nth_error (h_conns h) i = Some c -> k_at c = Reading -> ends h i.
Proof.
  intros G K. eapply (ends_step h (ALeave i)); [cbn [step]; rewrite G, K; reflexivity|reflexivity|reflexivity|].
  eapply leaving_ends; [eapply nth_put_c; eauto; reflexivity|reflexivity].
Qed.
Lemma listing_ends h i c : nth_error (h_conns h) i = Some c -> k_at c = Listing -> ends h i.
Proof.
  intros G K. eapply (ends_step h (AList i true)); [cbn [step]; rewrite G, K; reflexivity|reflexivity|reflexivity|].
  eapply reading_ends; [eapply nth_put_c; eauto; reflexivity|reflexivity].
Qed.
Lemma reg_ends h i c : nth_error (h_conns h) i = Some c -> k_at c = Reg -> ends h i.
Proof.
  intros G K. eapply (ends_step h (AReg i)); [cbn [step]; rewrite G, K; reflexivity|reflexivity|reflexivity|].
  eapply listing_ends; [eapply nth_put_c; eauto; reflexivity|reflexivity].
Qed.
Lemma sending_ends0 h i c : nth_error (h_conns h) i = Some c -> k_at c = Sending -> k_queue c < 32 -> ends h i.
Proof.
  intros G K Q. apply Nat.ltb_lt in Q. eapply (ends_step h (ASend i)); [cbn [step]; rewrite G, K, Q; reflexivity|reflexivity|reflexivity|].
  eapply reading_ends; [eapply nth_put_c; eauto; reflexivity|reflexivity].
Qed.
Lemma freeing_ends0 h i c : nth_error (h_conns h) i = Some c -> k_at c = Freeing -> k_free c < 32 -> ends h i.
Proof.
  intros G K Q. apply Nat.ltb_lt in Q. eapply (ends_step h (AFree i)); [cbn [step]; rewrite G, K, Q; reflexivity|reflexivity|reflexivity|].
  eapply reading_ends; [eapply nth_put_c; eauto; reflexivity|reflexivity].
Qed.
Lemma freeing_ends1 h i c : nth_error (h_conns h) i = Some c -> k_at c = Freeing -> k_free c <= 32 -> k_ntfn c = NWait -> ends h i.
Proof.
  intros G K F W. destruct (k_free c) as [|n] eqn:E; [eapply freeing_ends0; eauto; lia|].
  eapply (ends_step h (ANotify i)); [cbn [step]; rewrite G, K, W, E; reflexivity|reflexivity|reflexivity|].
  eapply freeing_ends0; [eapply nth_put_c; eauto; reflexivity|first [exact K|reflexivity]|cbn; lia].
Qed.
Lemma freeing_ends2 h i c : nth_error (h_conns h) i = Some c -> k_at c = Freeing -> k_free c <= 32 -> k_queue c < 32 -> ends h i.
Proof.
  intros G K F Q. destruct (k_ntfn c) eqn:W; [eapply freeing_ends1; eauto|]. apply Nat.ltb_lt in Q.
  eapply (ends_step h (APush i)); [cbn [step]; rewrite G, W, Q; reflexivity|reflexivity|reflexivity|].
  eapply freeing_ends1; [eapply nth_put_c; eauto; reflexivity|exact K|exact F|reflexivity].
Qed.

Lemma room h i c : nth_error (h_conns h) i = Some c -> k_queue c = 32 -> k_writer c <> WDead -> (k_writer c = WBusy -> k_closed c = false) ->
  (forall h1 c1, nth_error (h_conns h1) i = Some c1 -> k_at c1 = k_at c -> k_free c1 = k_free c -> k_queue c1 < 32 -> ends h1 i) -> ends h i.
Proof.
  intros G Q W B E.
  assert (X : forall h1 c1, nth_error (h_conns h1) i = Some c1 -> k_at c1 = k_at c -> k_free c1 = k_free c -> k_queue c1 = 32 -> k_writer c1 = WWait -> ends h1 i).
  { intros h1 c1 G1 K1 F1 Q1 W1. eapply (ends_step h1 (AWrite i)); [cbn [step]; rewrite G1, W1, Q1; reflexivity|reflexivity|reflexivity|].
    eapply E; [eapply nth_put_c; eauto; reflexivity|exact K1|exact F1|cbn; lia]. }
  destruct (k_writer c) eqn:Wc; [eauto| |congruence]. specialize (B eq_refl).
  eapply (ends_step h (AWrote i)); [cbn [step]; rewrite G, Wc, B; reflexivity|reflexivity|reflexivity|].
  eapply X; [eapply nth_put_c; eauto; reflexivity|reflexivity|reflexivity|exact Q|reflexivity].
Qed.

Lemma drive h i c : inv h -> nth_error (h_conns h) i = Some c -> ~ hopeless c -> k_at c <> Knock -> k_at c <> Kick -> k_at c <> Gone -> ends h i.
Proof.
  intros I G H N1 N2 N3. pose proof (proj2 (proj2 (proj2 I)) _ _ G) as [Q F].
  destruct (k_at c) eqn:K; try congruence.
  - eapply reg_ends; eauto.
  - eapply listing_ends; eauto.
  - eapply reading_ends; eauto.
  - destruct (Nat.ltb_spec (k_queue c) 32); [eapply sending_ends0; eauto|]. assert (Q' : k_queue c = 32) by lia.
    eapply room; eauto.
    + intros W. apply H. right. repeat split; auto.
    + intros W. destruct (k_closed c) eqn:C; auto. exfalso. apply H. right. repeat split; auto.
    + intros h1 c1 G1 K1 _ Q1. eapply sending_ends0; eauto. congruence.
  - destruct (Nat.ltb_spec (k_queue c) 32); [eapply freeing_ends2; eauto|]. assert (Q' : k_queue c = 32) by lia.
    destruct (Nat.ltb_spec (k_free c) 32); [eapply freeing_ends0; eauto|]. assert (F' : k_free c = 32) by lia.
    destruct (k_ntfn c) eqn:W; [eapply freeing_ends1; eauto|].
    eapply room; eauto.
    + intros X. apply H. right. repeat split; auto.
    + intros X. destruct (k_closed c) eqn:C; auto. exfalso. apply H. right. repeat split; auto 6.
    + intros h1 c1 G1 K1 F1 Q1. eapply freeing_ends2; eauto; congruence || lia.
  - eapply leaving_ends; eauto.
  - eapply unreg_ends; eauto.
  - exfalso. apply H. now left.
Qed.

Lemma drive_all n : forall h, inv h -> (forall i c, nth_error (h_conns h) i = Some c -> ~ hopeless c) ->
  exists l h', steps h l = Some h' /\ forallb own l = true /\
    (forall i c, i < n -> nth_error (h_conns h') i = Some c -> k_at c = Knock \/ k_at c = Kick \/ k_at c = Gone) /\
    (forall i, n <= i -> nth_error (h_conns h') i = nth_error (h_conns h) i).
Proof.
  induction n as [|n IH]; intros h I H; [exists [], h; repeat split; auto; intros; lia|].
  destruct (IH h I H) as (l & h1 & S & O & D & R). pose proof (inv_steps _ _ _ I S) as I1.
  assert (X : (exists c, nth_error (h_conns h1) n = Some c /\ k_at c <> Knock /\ k_at c <> Kick /\ k_at c <> Gone) \/
              (forall c, nth_error (h_conns h1) n = Some c -> k_at c = Knock \/ k_at c = Kick \/ k_at c = Gone)).
  { destruct (nth_error (h_conns h1) n) as [c|]; [|right; discriminate].
    destruct (k_at c) eqn:K; try (left; exists c; rewrite K; repeat split; congruence); right; intros c' E; injection E as <-; auto. }
  destruct X as [(c & G & N1 & N2 & N3)|X].
  - assert (Hc : ~ hopeless c) by (apply (H n); rewrite <- (R n); auto).
    destruct (drive h1 n c I1 G Hc N1 N2 N3) as (l2 & h2 & c2 & S2 & C2 & K2 & O2).
    exists (l ++ l2), h2. rewrite steps_app, S, forallb_app, O, O2. split; auto. split; auto. rewrite C2. split.
    + intros i d L Gd. destruct (Nat.eqb_spec i n) as [->|N].
      * rewrite (nth_put_eq _ _ _ _ G) in Gd. injection Gd as <-. auto.
      * rewrite nth_put_ne in Gd by auto. apply (D i); auto. lia.
    + intros i L. rewrite nth_put_ne by lia. apply R. lia.
  - exists l, h1. split; auto. split; auto. split.
    + intros i c L G. destruct (Nat.eqb_spec i n) as [->|N]; auto. apply (D i); auto. lia.
    + intros i L. apply R. lia.
Qed.

(** An account can become free again exactly if no connection is hopeless; then
    the steps of the connections that exist suffice, and the next login gets in. *)
Theorem C28_recovers h : reach h -> (forall i c, nth_error (h_conns h) i = Some c -> ~ hopeless c) ->
  exists l h', steps h l = Some h' /\ forallb own l = true /\
    (forall i c, nth_error (h_conns h') i = Some c -> k_at c = Knock \/ k_at c = Kick \/ k_at c = Gone) /\
    h_online h' = None.
Proof.
  intros R H. pose proof (reach_inv _ R) as I.
  destruct (drive_all (length (h_conns h)) h I H) as (l & h' & S & O & D & E).
  assert (D' : forall i c, nth_error (h_conns h') i = Some c -> k_at c = Knock \/ k_at c = Kick \/ k_at c = Gone).
  { intros i c G. destruct (Nat.ltb_spec i (length (h_conns h))); [eapply D; eauto|]. rewrite E in G by auto.
    apply nth_error_None in H0. congruence. }
  exists l, h'. repeat split; auto. destruct (h_online h') as [i|] eqn:Oi; auto. exfalso.
  assert (R' : reach h') by (eapply reach_steps; eauto). destruct (proj1 (proj2 (C28_one h' R'))) as (j & c & G & Hc); [congruence|].
  destruct (D' _ _ G) as [K|[K|K]]; unfold holds in Hc; rewrite K in Hc; discriminate.
Qed.
Print Assumptions C28_recovers.

(** Otherwise the account is never free again, whatever happens: no other
    connection ever gets in. *)
Theorem C28_never h i c : reach h -> nth_error (h_conns h) i = Some c -> hopeless c ->
  forall l h', steps h l = Some h' -> h_online h' = Some i /\
    (forall j d, nth_error (h_conns h') j = Some d -> holds d = true -> j = i).
Proof.
  intros R G H l h' S. pose proof (reach_inv _ R) as I. destruct (hopeless_steps _ _ _ _ _ I S G H) as (c' & G' & H').
  pose proof (inv_steps _ _ _ I S) as I'. assert (O : h_online h' = Some i) by (eapply inv_holder; eauto using hopeless_holds).
  split; auto. intros j d D Hd. pose proof (inv_holder _ _ _ I' D Hd). congruence.
Qed.
Print Assumptions C28_never.

(** The entry in the table of sessions is never that of a connection that is gone. *)
Definition in_session (c : conn) : bool :=
  match k_at c with Listing | Reading | Sending | Freeing | Leaving | Unreg | Lost => true | Knock | Kick | Reg | Gone => false end.

Lemma entry_step h a h' : inv h -> step h a = Some h' ->
  (forall o, h_entry h = Some o -> exists c, nth_error (h_conns h) o = Some c /\ in_session c = true) ->
  forall o, h_entry h' = Some o -> exists c, nth_error (h_conns h') o = Some c /\ in_session c = true.
Proof.
  intros I E H o.
  assert (P : forall i (c c' : conn), nth_error (h_conns h) i = Some c -> (in_session c = true -> in_session c' = true) ->
    h_entry h = Some o -> exists d', nth_error (put i c' (h_conns h)) o = Some d' /\ in_session d' = true).
  { intros i c c' Gc Cc En. destruct (H _ En) as (d & G & D). destruct (Nat.eqb_spec o i) as [->|N]; [|rewrite nth_put_ne by auto; eauto].
    rewrite (nth_put_eq _ _ _ _ Gc). exists c'. split; auto. apply Cc. congruence. }
  destruct a as [|i|i|i|i ok|i|i|i|i|i|i|i|i|i|i|i|i|i|]; cbn [step] in E.
  1:{ injection E as <-. cbn. intros En. destruct (H _ En) as (d & G & D). exists d. split; auto. rewrite nth_error_app1; auto. apply nth_error_Some. congruence. }
  18:{ destruct (h_entry h) as [q|] eqn:En; [|injection E as <-; rewrite En; discriminate]. destruct (nth_error (h_conns h) q) eqn:Gq; [|discriminate].
    injection E as <-. cbn [h_entry set_conn h_conns]. intros X. rewrite En in X. eapply P; eauto. }
  all: destruct (nth_error (h_conns h) i) as [c|] eqn:Gi; [|discriminate].
  2:{ destruct (k_at c); try discriminate. destruct (h_entry h) as [q|]; injection E as <-; discriminate. }
  all: repeat match type of E with
    | match k_at ?x with _ => _ end = _ => destruct (k_at x) eqn:?; try discriminate E
    | match k_closed ?x with _ => _ end = _ => destruct (k_closed x) eqn:?; try discriminate E
    | match k_writer ?x with _ => _ end = _ => destruct (k_writer x) eqn:?; try discriminate E
    | match k_ntfn ?x with _ => _ end = _ => destruct (k_ntfn x) eqn:?; try discriminate E
    | match k_free ?x with _ => _ end = _ => destruct (k_free x) eqn:?; try discriminate E
    | match k_queue ?x with _ => _ end = _ => destruct (k_queue x) eqn:?; try discriminate E
    | match h_online ?x with _ => _ end = _ => destruct (h_online x)
    | (if ?b then _ else _) = _ => destruct b; try discriminate E
    end; injection E as <-; cbn [h_conns h_entry set_conn]; intros En; try discriminate En;
    try (eapply P; eauto; unfold in_session; cbn; repeat match goal with HK : k_at ?x = _ |- context [k_at ?x] => rewrite HK end; solve [auto | discriminate | match goal with |- context [if ?b then _ else _] => now destruct b end]).
  injection En as <-. rewrite (nth_put_eq _ _ _ _ Gi). eexists. split; eauto.
Qed.

Theorem C28_entry h o : reach h -> h_entry h = Some o -> exists c, nth_error (h_conns h) o = Some c /\ in_session c = true.
Proof.
  intros [l R]. revert o. assert (Z : forall o, h_entry empty_house = Some o -> exists c, nth_error (h_conns empty_house) o = Some c /\ in_session c = true) by discriminate.
  revert R Z. generalize inv_empty. generalize empty_house. induction l as [|a l IH]; intros h0 I R Z o; cbn in R; [injection R as <-; auto|].
  destruct (step h0 a) as [h1|] eqn:E; [|discriminate]. apply (IH h1); auto; [eapply inv_step; eauto|]. eapply entry_step; eauto.
Qed.
Print Assumptions C28_entry.

(** ** The ways in which an account becomes unusable, or a login useless *)

Definition login (i : nat) : list act := [AConnect; AOnline i; AReg i; AList i true].

(** The directory of the account could not be read at login. *)
Theorem C28_lost_refuted : exists h c, reach h /\ nth_error (h_conns h) 0 = Some c /\ k_at c = Lost /\ hopeless c.
Proof.
  destruct (steps empty_house [AConnect; AOnline 0; AReg 0; AList 0 false]) as [h|] eqn:E; [|discriminate].
  exists h. vm_compute in E. injection E as <-. eexists. split; [|split; [reflexivity|split; [reflexivity|now left]]].
  now exists [AConnect; AOnline 0; AReg 0; AList 0 false].
Qed.
Print Assumptions C28_lost_refuted.

(** The client sends 34 requests and reads no answer; then somebody logs in a
    second time, which closes the connection. *)
Definition flood : list act := login 0 ++ [ARequest 0; ASend 0; AWrite 0] ++ concat (repeat [ARequest 0; ASend 0] 32) ++ [ARequest 0].
Theorem C28_flood_refuted : exists h1 h2, steps empty_house flood = Some h1 /\
  (forall i c, nth_error (h_conns h1) i = Some c -> ~ hopeless c) /\
  steps h1 [AConnect; AOnline 1; AKick 1] = Some h2 /\ exists c, nth_error (h_conns h2) 0 = Some c /\ doomed c.
Proof.
  exists (mkHouse (Some 0) (Some 0) [mkConn Sending false 32 32 NWait WBusy]).
  exists (mkHouse (Some 0) None [mkConn Sending true 32 32 NWait WBusy; mkConn Gone false 0 32 NWait WWait]).
  split; [vm_compute; reflexivity|]. split; [|split; [vm_compute; reflexivity|]].
  - intros [|[|i]] c H; cbn in H; [|discriminate|destruct i; discriminate]. injection H as <-.
    intros [X|(_ & [X|[_ X]] & _)]; discriminate X.
  - eexists. split; [reflexivity|]. repeat split; auto.
Qed.
Print Assumptions C28_flood_refuted.

(** The clean-up of an old connection removes the entry of its successor, so
    that the next login is refused and closes nothing. *)
Theorem C28_unregistered_refuted : exists l h, steps empty_house l = Some h /\
  h_online h = Some 1 /\ h_entry h = None /\ (exists c, nth_error (h_conns h) 1 = Some c /\ k_at c = Reading /\ k_closed c = false) /\
  exists h2, steps h [AConnect; AOnline 2; AKick 2] = Some h2 /\
    firstn 2 (h_conns h2) = h_conns h /\ (exists c, nth_error (h_conns h2) 2 = Some c /\ k_at c = Gone) /\ h_online h2 = Some 1.
Proof.
  exists (login 0 ++ [ADrop 0; ALeave 0; AOffline 0] ++ login 1 ++ [AUnreg 0]). eexists. split; [reflexivity|].
  split; [reflexivity|]. split; [reflexivity|]. split; [eexists; repeat split; reflexivity|].
  eexists. split; [reflexivity|]. split; [reflexivity|]. split; [eexists; split; reflexivity|reflexivity].
Qed.
Print Assumptions C28_unregistered_refuted.

(** A normal life: a second login closes the first, a third succeeds. *)
Example C28_case : exists h, steps empty_house (login 0 ++ [AConnect; ARequest 0; ASend 0; AWrite 0; AOnline 1; AKick 1; AWFail 0; ALeave 0; AOffline 0; AUnreg 0; AConnect; AOnline 2; AReg 2; AList 2 true; ARequest 2]) = Some h /\
  h_online h = Some 2 /\ h_entry h = Some 2 /\ map k_at (h_conns h) = [Gone; Gone; Sending].
Proof. eexists. repeat split; reflexivity. Qed.
