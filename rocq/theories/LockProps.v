(** C73: the goroutines of a client do not wait for each other in a circle.  What is
    said here is about runs: which goroutine can do a step, and whether it will. *)
From Coq Require Import List Arith Bool Lia.
Import ListNotations.
From Verif Require Import LockModel LockProofs.

(** Whatever the client was doing, and however many goroutines it has: left alone it
    comes to rest after finitely many steps, whichever goroutine does the next one.  Then
    nobody waits for anything but the next message of the server, nobody holds a lock, and
    all work that was handed to somebody has been done. *)
Theorem C73_alive : forall s, reached (mkWorld None true) s ->
  Acc (fun s2 s1 => exists x, istep (mkWorld None true) s1 x s2) s /\
  forall s', alone (mkWorld None true) s s' ->
    (exists x s2, istep (mkWorld None true) s' x s2) \/
    ((forall i t, nth_error (s_threads s') i = Some t -> t_held t = [] /\ (t_ops t = [] \/ exists k, t_ops t = Read :: k)) /\
     (forall b, s_box s' b = [])).
Proof.
  intros s R. split; [apply ends|]. intros s' A. destruct (good_reached _ _ R) as [Ro G]. destruct (good_alone _ _ _ _ G A) as [Ro' G'].
  destruct (step_dec (mkWorld None true) s') as [H|H]; [now left | right; exact (stuck_settled Ro' s' G' H)].
Qed.
Print Assumptions C73_alive.

(** If the queue of the terminal library takes [n] entries and then lets its users wait,
    the client can stop for good: the goroutine that draws waits for the client's lock and
    will never do another step, whatever is typed and whatever the server sends. *)
Theorem C73_full_refuted : forall n, exists s,
  reached (mkWorld (Some n) true) s /\
  (exists t, nth_error (s_threads s) ui = Some t /\ t_ops t <> []) /\
  forall tr s', later (mkWorld (Some n) true) s tr s' -> forall x, In x tr -> fst x <> ui.
Proof.
  intros n. destruct (fill n) as (s & R & D). exists s. split; auto. split.
  - destruct (d_ui _ _ D) as (k & kids & j & H). eexists. split; [exact H | discriminate].
  - intros tr s' L. apply (dead_later n s tr s' D L).
Qed.
Print Assumptions C73_full_refuted.

(** While the client connects it is locked.  If the server accepts the connection and then
    says nothing, nobody gets the lock again: nothing is printed, no window is changed, no
    command that looks at the client goes on, /offline and /online included. *)
Theorem C73_silent_refuted : forall c, exists s,
  reached (mkWorld c false) s /\
  forall tr s' i, later (mkWorld c false) s tr s' -> ~ In (i, Some (Have Z)) tr /\ ~ In (i, Some (RLk Z)) tr.
Proof.
  intros c. destruct (connecting (mkWorld c false)) as (s & t & k & R & Ht & Ho & Hl). exists s. split; auto. intros tr s' i L.
  assert (T : taken s) by (exists 3, t, k; auto).
  pose proof (taken_later (mkWorld c false) eq_refl s tr s' (excl_reached _ _ R) T L) as H.
  split; intros Hi; apply (H _ Hi); [now left | now right].
Qed.
Print Assumptions C73_silent_refuted.

(** Locks do what they are for: nobody reads or changes what somebody else is changing. *)
Theorem C73_exclusive : forall w s l i j t u m, reached w s ->
  nth_error (s_threads s) i = Some t -> nth_error (s_threads s) j = Some u ->
  In (l, Writing) (t_held t) -> In (l, m) (t_held u) -> m <> Claimed -> i = j.
Proof.
  intros w s l i j t u m R Hi Hj Li Lj N. destruct m.
  - exfalso. now apply (shared_reached _ _ R l i j t u).
  - congruence.
  - eapply (excl_reached _ _ R); eauto; discriminate.
Qed.
Print Assumptions C73_exclusive.

(** A client that lists a conversation while it connects: three goroutines that want the
    lock at once. *)
Definition busy_client : state :=
  let new x s := mkState (s_threads s ++ [mkThread x [] [] None]) (s_box s) (s_next s) in
  new [Lk Z; Net; Ul Z; Put Ui line] (new (listing 3) (new (listing 1) begin)).
Example busy_reached : forall w, reached w busy_client.
Proof.
  intros w. eapply R_env; [eapply R_env; [eapply R_env; [apply R_begin|]|]|].
  - apply (E_new begin keyHandler); [cbn; tauto | apply way_listing].
  - apply E_new with (p := keyHandler); [cbn; tauto | apply way_listing].
  - apply E_new with (p := goOnlineAndPrint); [cbn; tauto | apply way_online].
Qed.
Example C73_alive_case : Acc (fun s2 s1 => exists x, istep (mkWorld None true) s1 x s2) busy_client /\
  exists x s2, istep (mkWorld None true) busy_client x s2.
Proof.
  destruct (C73_alive busy_client (busy_reached _)) as [A B]. split; auto.
  destruct (B _ (A_now _ _)) as [H | [H _]]; auto. exfalso. destruct (H 3 _ eq_refl) as [_ [[=] | (k & [=])]].
Qed.
Example C73_exclusive_case : exists s t, reached (mkWorld None true) s /\ nth_error (s_threads s) 3 = Some t /\ In (Z, Writing) (t_held t).
Proof.
  destruct (connecting (mkWorld None true)) as (s & t & k & R & Ht & _ & Hl). eauto.
Qed.
