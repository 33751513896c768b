(** C74: one client of the server cannot hold up another. *)
From Coq Require Import List Arith Bool Lia.
Import ListNotations.
From Verif Require Import SrvLockModel SrvLockProofs.
Local Open Scope prog_scope.

(** * Specification *)

(** No client sends or takes anything. *)
Definition idle_clients : world := mkWorld (fun _ => false) (fun _ => false) true.

(** It waits for its own client or for a goroutine of its own session. *)
Definition about (g : guard) : conn :=
  match g with
  | Recv ch | Snd ch => match ch with Writer c | Ntfn c | Work c | Tags c => c end
  | On q => match q with Quit c | Gone c => c end
  end.
Definition own_wait (t : thread) : Prop :=
  match t_rest t with
  | Read c :: _ | Write c :: _ => c = t_conn t
  | Wait g :: _ => about g = t_conn t
  | Sel g1 _ g2 _ :: _ => about g1 = t_conn t /\ about g2 = t_conn t
  | _ => False
  end.

(** It gets on: it can take a step, or waits for a lock whose holder gets on. *)
Inductive moving (w : world) (s : state) : nat -> Prop :=
| M_step : forall i, can w s i -> moving w s i
| M_wait : forall i t l k j u, nth_error (s_threads s) i = Some t -> t_rest t = Lk l :: k ->
    nth_error (s_threads s) j = Some u -> In l (t_held u) -> moving w s j -> moving w s i.

(** After at most [n] steps of its own the goroutine no longer holds [l], whatever it
    does and whatever happens in between, and until then it waits neither for a client
    nor for a channel. *)
Definition nobody (t : thread) : Prop :=
  match t_rest t with
  | [] | Read _ :: _ | Write _ :: _ | Wait _ :: _ | Sel _ _ _ _ :: _ => False
  | _ => True
  end.
Fixpoint lets_go (n : nat) (l : lock) (t : thread) : Prop :=
  ~ In l (t_held t) \/
  match n with
  | O => False
  | S n => nobody t /\
      forall w s i s' t', nth_error (s_threads s) i = Some t -> step w s i s' ->
        nth_error (s_threads s') i = Some t' -> lets_go n l t'
  end.

(** * Proofs *)

Lemma gone_lets_go n l t : ~ In l (t_held t) -> lets_go n l t.
Proof. destruct n; cbn; auto. Qed.

Lemma due_step w s i s' t t' b l n : step w s i s' -> nth_error (s_threads s) i = Some t -> tinv b t ->
  nth_error (s_threads s') i = Some t' -> due l (S n) (t_rest t) -> In l (t_held t') -> due l n (t_rest t').
Proof.
  intros H T TI T' D I.
  assert (X : forall s1 t1, s_threads s1 = s_threads s -> nth_error (s_threads (put s1 i t1)) i = Some t' -> t' = t1).
  { intros s1 t1 E. cbn [put s_threads]. rewrite E, (nth_upd_same _ _ _ _ T). now intros [= <-]. }
  destruct H as [t0 k T0 R|t0 p q k T0 R|t0 p q k T0 R|t0 p q k T0 R|t0 p k T0 R|t0 p k T0 R|t0 p k T0 R|t0 p k T0 R
    |t0 r0 p k T0 R|t0 l0 k T0 R F|t0 l0 k h1 h2 T0 R E|t0 d k T0 R C|t0 d k T0 R C|t0 d k T0 R C|t0 d k T0 R|t0 d k T0 R
    |t0 g k T0 R|t0 g k T0 R G|t0 g1 p1 g2 p2 k T0 R G|t0 g1 p1 g2 p2 k T0 R G];
    rewrite T in T0; injection T0 as <-; rewrite R in D;
    try (inversion D; fail);
    (apply X in T'; [|try reflexivity; try apply threads_fire; try (destruct (_ <? _); reflexivity)]);
    try (subst t'; cbn [rest holding t_rest]; inversion D; subst; trivial; auto; fail).
  (* Unlock *)
  subst t'. cbn [holding t_rest t_held] in *. inversion D; subst; [|trivial].
  destruct TI as [O DS]. rewrite E in DS. exfalso.
  destruct t as [c r k0 h0]; cbn [t_conn t_role t_rest t_held] in *. subst h0 k0.
  inversion O as [|? e' ? ? OK OKS]; subst. inversion OK; subst.
  match goal with Q : ?x :: ?h = h1 ++ _ |- _ => rewrite <- Q in DS; rewrite (desc_split _ _ _ _ DS Q) in I end.
  now apply desc_fresh in DS.
Qed.

Lemma due_nobody l n t : due l n (t_rest t) -> nobody t.
Proof. unfold nobody. destruct (t_rest t) as [|p k]; intros D; [inversion D|]. destruct p; trivial; inversion D. Qed.

Lemma due_lets_go l n : forall t b, tinv b t -> due l n (t_rest t) -> lets_go n l t.
Proof.
  induction n as [|n IH]; intros t b TI D; [inversion D|].
  cbn [lets_go]. right. split; [eapply due_nobody; eauto|].
  intros w s i s' t' T H T'.
  destruct (in_dec lock_dec l (t_held t')) as [I|I]; [|now apply gone_lets_go].
  destruct (own_step _ _ _ _ _ _ H T TI) as (t1 & b1 & T1 & TI1 & _). rewrite T' in T1. injection T1 as <-.
  eapply IH; eauto. eapply due_step; eauto.
Qed.

Lemma holder_moves s : inv s -> forall n l j u, 2 - rank l <= n -> nth_error (s_threads s) j = Some u -> In l (t_held u) ->
  moving idle_clients s j.
Proof.
  intros V. induction n as [|n IH]; intros l j u N U I; destruct (V _ _ U) as (b & TI & _);
    destruct (held_next _ _ _ TI I) as (p & k & R & [W|(l' & -> & L)]).
  1, 3: apply M_step; eapply (never_waits idle_clients); eauto; reflexivity.
  - pose proof (rank_max l'). lia.
  - destruct (free_dec s l') as [F|(j' & u' & U' & I')].
    + apply M_step. eexists. eapply S_lock; eauto.
    + eapply M_wait; eauto. eapply IH; eauto. pose proof (rank_max l'). lia.
Qed.

Lemma holder_lets_go s j u l : inv s -> nth_error (s_threads s) j = Some u -> In l (t_held u) -> exists n, lets_go n l u.
Proof.
  intros V U I. destruct (V _ _ U) as (b & TI & _). destruct (due_oks _ _ _ _ (proj1 TI) l I) as [n D].
  exists n. eapply due_lets_go; eauto.
Qed.

Lemma allowed_own c r p k t : allowed c r p -> t_conn t = c -> t_rest t = p :: k -> own_wait t.
Proof. unfold own_wait. intros A C R. rewrite R. destruct A; cbn [about]; auto. Qed.

(** C74.  In every state of the server, with any number of sessions and whatever its
    clients did: every goroutine has ended, or can go on even if no client ever does
    anything again, or waits for its own client or its own session, or waits for a lock.
    The goroutine that holds that lock gets on without any client, and lets go of it
    after a bounded number of its own steps in which it waits for no client and no
    channel. *)
Theorem C74_independent s : reach true s -> forall i t, nth_error (s_threads s) i = Some t ->
  t_rest t = [] \/ can idle_clients s i \/ own_wait t \/
  exists l k j u, t_rest t = Lk l :: k /\ nth_error (s_threads s) j = Some u /\ In l (t_held u) /\
    moving idle_clients s j /\ exists n, lets_go n l u.
Proof.
  intros RE i t T. pose proof (inv_reach _ _ RE) as V. destruct (V _ _ T) as (b & TI & _).
  destruct (t_rest t) as [|p k] eqn:R; [auto|right].
  destruct (waits p) eqn:W.
  2:{ left. eapply never_waits; eauto; reflexivity. }
  destruct p; try discriminate W.
  - destruct (free_dec s l) as [F|(j & u & U & I)].
    + left. eexists. eapply S_lock; eauto.
    + right. right. exists l, k, j, u. split; [trivial|]. split; [trivial|]. split; [trivial|].
      split; [eapply holder_moves; eauto|eapply holder_lets_go; eauto].
  - right. left. destruct TI as [O _]. rewrite R in O. inversion O as [|? ? ? ? OK _]; subst. inversion OK; subst. eapply allowed_own; eauto.
  - right. left. destruct TI as [O _]. rewrite R in O. inversion O as [|? ? ? ? OK _]; subst. inversion OK; subst. eapply allowed_own; eauto.
  - right. left. destruct TI as [O _]. rewrite R in O. inversion O as [|? ? ? ? OK _]; subst. inversion OK; subst. eapply allowed_own; eauto.
  - right. left. destruct TI as [O _]. rewrite R in O. inversion O as [|? ? ? ? OK _]; subst. inversion OK; subst. eapply allowed_own; eauto.
Qed.
Print Assumptions C74_independent.

(** What a session waits for when all of its goroutines wait. *)
Definition ended_writer (s : state) (c : conn) : Prop :=
  exists j u, nth_error (s_threads s) j = Some u /\ t_conn u = c /\ t_role u = WriterR /\ t_rest u = [].
Inductive at_rest (s : state) (c : conn) (t : thread) : Prop :=
| Q_ended : t_rest t = [] -> at_rest s c t
(** the next message of the client *)
| Q_read : forall k, t_rest t = Read c :: k -> at_rest s c t
(** something to write; something to tell; new mail *)
| Q_writer : forall p q k, t_rest t = Sel (On (Quit c)) p (Recv (Writer c)) q :: k -> s_len s (Writer c) = 0 -> at_rest s c t
| Q_ntfn : forall p q k, t_rest t = Sel (On (Quit c)) p (Recv (Ntfn c)) q :: k -> s_len s (Ntfn c) = 0 -> at_rest s c t
| Q_work : forall p q k, t_rest t = Sel (On (Gone c)) p (Recv (Work c)) q :: k -> s_len s (Work c) = 0 -> at_rest s c t
(** an acknowledgement: all tags are in use *)
| Q_tag : forall k, t_rest t = Wait (Recv (Tags c)) :: k -> s_len s (Tags c) = 0 -> at_rest s c t
(** sessionNtfn, to take one of 32 messages *)
| Q_feed : forall p q k, t_rest t = Sel (On (Gone c)) p (Snd (Ntfn c)) q :: k -> 32 <= s_len s (Ntfn c) -> at_rest s c t
(** itself (C23_stuck_refuted): mail came before the feeder began *)
| Q_first : forall k, t_rest t = Wait (Snd (Work c)) :: k -> 1 <= s_len s (Work c) -> at_rest s c t
(** a writer that has ended (C28) *)
| Q_wedged : forall k, t_rest t = Wait (Snd (Writer c)) :: k -> 32 <= s_len s (Writer c) -> ended_writer s c -> at_rest s c t
(** room for a tag: the client acknowledged a message it did not have *)
| Q_over : forall k, t_rest t = Wait (Snd (Tags c)) :: k -> 32 <= s_len s (Tags c) -> at_rest s c t.

Lemma not_ready_recv s ch : ~ ready s (Recv ch) -> s_len s ch = 0.
Proof. cbn. lia. Qed.
Lemma not_ready_snd s ch : ~ ready s (Snd ch) -> cap ch <= s_len s ch.
Proof. cbn. lia. Qed.

(** C74: a session stops only where its client has to do something.  If the client [c]
    takes what is written to it and no goroutine of its connection can go on or waits for
    a lock, then each of them is at rest; and unless sessionWriter has ended, every
    answer and every message handed to it was written to the client. *)
Theorem C74_session w s c : reach true s -> w_close w = true -> w_write w c = true ->
  (forall i t, nth_error (s_threads s) i = Some t -> t_conn t = c -> ~ can w s i) ->
  (forall i t l k, nth_error (s_threads s) i = Some t -> t_conn t = c -> t_rest t <> Lk l :: k) ->
  (forall i t, nth_error (s_threads s) i = Some t -> t_conn t = c -> at_rest s c t) /\
  (forall i t, nth_error (s_threads s) i = Some t -> t_conn t = c -> t_role t = WriterR -> t_rest t <> [] ->
     s_len s (Writer c) = 0).
Proof.
  intros RE WC WW ST NL. pose proof (inv_reach _ _ RE) as V.
  assert (WR : forall j u, nth_error (s_threads s) j = Some u -> t_conn u = c -> t_role u = WriterR ->
     t_rest u = [] \/ (s_len s (Writer c) = 0 /\ at_rest s c u)).
  { intros j u U C R. destruct (V _ _ U) as (b & TI & _). destruct (t_rest u) as [|p k] eqn:RS; [auto|right].
    destruct (waits p) eqn:W.
    2:{ exfalso. apply (ST _ _ U C). eapply never_waits; eauto. }
    destruct TI as [O _]. rewrite RS, R, C in O. inversion O as [|? ? ? ? OK _]; subst e k0 p0.
    destruct p; try discriminate W; [exfalso; exact (NL _ _ _ _ U C RS)| | | |]; inversion OK as [| | | | | | | | | | | | |? ? ? A|? ? ? A|? ? ? A|? ? ? ? ? ? ? A| | |]; subst;
      inversion A; subst; try (intuition discriminate).
    - exfalso. apply (ST _ _ U eq_refl). eexists. eapply S_write; eauto.
    - assert (L : s_len s (Writer (t_conn u)) = 0).
      { apply not_ready_recv. intros G. apply (ST _ _ U eq_refl). eexists. eapply S_sel2; eauto. }
      split; [exact L|]. eapply Q_writer; eauto. }
  split.
  2:{ intros i t T C R N. destruct (WR _ _ T C R) as [E|[L _]]; [contradiction|exact L]. }
  intros i t T C. destruct (V _ _ T) as (b & TI & HW).
  destruct (t_rest t) as [|p k] eqn:RS; [now apply Q_ended|].
  destruct (waits p) eqn:W.
  2:{ exfalso. apply (ST _ _ T C). eapply never_waits; eauto. }
  destruct TI as [O _]. rewrite RS, C in O. inversion O as [|? ? ? ? OK _]; subst e k0 p0.
  destruct p; try discriminate W; [exfalso; exact (NL _ _ _ _ T C RS)| | | |]; inversion OK as [| | | | | | | | | | | | |? ? ? A|? ? ? A|? ? ? A B|? ? ? ? ? ? ? A| | |]; subst.
  - inversion A; subst. eapply Q_read; eauto.
  - inversion A; subst. exfalso. apply (ST _ _ T eq_refl). eexists. eapply S_write; eauto.
  - assert (NR : ~ ready s g).
    { intros G. apply (ST _ _ T eq_refl). eexists. eapply S_wait; eauto. }
    inversion A; subst.
    + apply not_ready_snd in NR. eapply Q_over; eauto.
    + apply not_ready_snd in NR. eapply Q_wedged; eauto.
      specialize (B _ eq_refl). destruct (HW B) as (j & u & U & CU & RU). exists j, u. split; [trivial|]. split; [trivial|]. split; [trivial|].
      destruct (WR _ _ U CU RU) as [E|[L _]]; [trivial|]. cbn [cap] in NR. unfold tag_depth in NR. lia.
    + apply not_ready_recv in NR. eapply Q_tag; eauto.
    + apply not_ready_snd in NR. eapply Q_first; eauto.
  - assert (N1 : ~ ready s g1).
    { intros G. apply (ST _ _ T eq_refl). eexists. eapply S_sel1; eauto. }
    assert (N2 : ~ ready s g2).
    { intros G. apply (ST _ _ T eq_refl). eexists. eapply S_sel2; eauto. }
    inversion A; subst.
    + apply not_ready_recv in N2. eapply Q_writer; eauto.
    + apply not_ready_recv in N2. eapply Q_ntfn; eauto.
    + apply not_ready_recv in N2. eapply Q_work; eauto.
    + apply not_ready_snd in N2. eapply Q_feed; eauto.
Qed.
Print Assumptions C74_session.

(** C74: at any time at most one goroutine holds a lock. *)
Theorem C74_exclusive b s : reach b s -> forall i j t u l,
  nth_error (s_threads s) i = Some t -> nth_error (s_threads s) j = Some u ->
  In l (t_held t) -> In l (t_held u) -> i = j.
Proof. intros R. exact (alone_reach _ _ R). Qed.
Print Assumptions C74_exclusive.

(** * Closing a connection *)

(** Steps while the client [c] takes nothing and Close waits for it. *)
Inductive later (c : conn) (s : state) : state -> Prop :=
| L_now : later c s s
| L_ev : forall w s1 s2, later c s s1 -> w_close w = false -> w_write w c = false -> ev w s1 s2 -> later c s s2.

Lemma upd_keep s s1 i k t u : s_threads s1 = s_threads s -> nth_error (s_threads s) k = Some t -> k <> i ->
  nth_error (s_threads (put s1 i u)) k = Some t.
Proof. intros E K N. cbn [put s_threads]. rewrite E, nth_upd_other by trivial. exact K. Qed.

Lemma blocked_step w s i s' k t : step w s i s' -> nth_error (s_threads s) k = Some t ->
  nth_error (s_threads s') k = Some t \/ k = i.
Proof.
  intros H K. destruct (Nat.eq_dec k i) as [->|N]; [auto|left].
  destruct H; try (apply (upd_keep s); [first [reflexivity | apply threads_fire | destruct (_ <? _); reflexivity]|exact K|exact N]).
  cbn [add s_threads]. rewrite nth_error_app1.
  - apply (upd_keep s); [reflexivity|exact K|exact N].
  - apply nth_error_Some. rewrite (upd_keep s s i k t); auto. discriminate.
Qed.

Lemma close_stays c s i t ki j u kj : nth_error (s_threads s) i = Some t -> t_rest t = Lk Srv :: ki ->
  nth_error (s_threads s) j = Some u -> t_rest u = Close c :: kj -> In Srv (t_held u) -> s_shut s c = false ->
  forall s', later c s s' -> nth_error (s_threads s') i = Some t /\ nth_error (s_threads s') j = Some u /\ s_shut s' c = false.
Proof.
  intros T RT U RU HU SH s'. induction 1 as [|w s1 s2 L IH WC WW E]; [auto|].
  destruct IH as (T1 & U1 & SH1).
  destruct E as [a s2 H|d N|d N].
  2, 3: cbn [add s_threads s_shut]; rewrite !nth_error_app1; [auto| |]; apply nth_error_Some; congruence.
  assert (NT : a <> i).
  { intros ->. destruct H; match goal with Q : nth_error _ i = Some ?x |- _ => rewrite T1 in Q; injection Q as <- end;
      match goal with Q : t_rest t = _ |- _ => rewrite RT in Q; try discriminate Q; injection Q as <- <- end.
    match goal with F : free _ _ |- _ => exact (F _ _ U1 HU) end. }
  assert (NU : a <> j).
  { intros ->. destruct H; match goal with Q : nth_error _ j = Some ?x |- _ => rewrite U1 in Q; injection Q as <- end;
      match goal with Q : t_rest u = _ |- _ => rewrite RU in Q; try discriminate Q; injection Q as <- <- end.
    intuition congruence. }
  destruct (blocked_step _ _ _ _ _ _ H T1) as [T2|X]; [|congruence].
  destruct (blocked_step _ _ _ _ _ _ H U1) as [U2|X]; [|congruence].
  split; [trivial|]. split; [trivial|].
  destruct H; cbn [put add set_shut s_shut]; trivial; try (destruct (_ <? _); trivial; fail); try (destruct g; trivial; fail);
    try (destruct g1; trivial; fail); try (destruct g2; trivial; fail).
  destruct (c =? c0) eqn:Q; [|trivial]. apply Nat.eqb_eq in Q. subst c0. exfalso. intuition congruence.
Qed.

(** * Cases *)

Definition live (b : bool) : world := mkWorld (fun _ => true) (fun _ => true) b.
(** client 1 sends but takes nothing *)
Definition deaf (b : bool) : world := mkWorld (fun c => negb (c =? 1)) (fun _ => true) b.
(** clients take everything and send nothing *)
Definition quiet : world := mkWorld (fun _ => true) (fun _ => false) true.

(** From the connection to the lock in Online. *)
Definition hello : list nat := [0; 0; 1; 1; 0; 0] ++ repeat 1 10 ++ [0; 0; 0; 0; 1; 0].
(** The rest of the login; one request. *)
Definition welcome : list nat := [1; 0; 0].
Definition ping : list nat := [0; 0; 0; 0].
Definition head (s : state) (i : nat) : option prog :=
  match nth_error (s_threads s) i with Some t => hd_error (t_rest t) | None => None end.
Definition held (s : state) (i : nat) : list lock :=
  match nth_error (s_threads s) i with Some t => t_held t | None => [] end.

(** Client 1 sends requests and does not take the answers: its writer waits for it, and
    its handler for room in the queue.  Client 2 is about to go online and holds the lock
    of the accounts, for which client 3 waits. *)
Definition crowd : state :=
  play true ([Client 1; Do (live true) 1 (hello ++ welcome); Do (deaf true) 1 ping; Do (deaf true) 3 [1; 0; 1]]
             ++ map (fun _ => Do (deaf true) 1 ping) (seq 0 33)
             ++ [Client 2; Client 3; Do (live true) 5 hello; Do (live true) 6 hello]).
Example C74_independent_case :
  reach true crowd /\
  head crowd 1 = Some (Wait (Snd (Writer 1))) /\ s_len crowd (Writer 1) = 32 /\ head crowd 3 = Some (Write 1) /\
  head crowd 6 = Some (Lk Acct) /\ held crowd 5 = [Acct].
Proof. split; [apply play_reach|]. vm_compute. auto. Qed.

(** Nothing to do: client 1 is logged in, has taken all answers, and sends nothing. *)
Definition calm : state :=
  play true [Client 1; Do (live true) 1 hello; Do quiet 1 welcome; Do quiet 2 [1; 1; 0]; Do quiet 3 []; Do quiet 4 []].
Lemma blocked_not w s i t : nth_error (s_threads s) i = Some t ->
  match t_rest t with
  | [] => True
  | Read c :: _ => w_read w c = false /\ s_shut s c = false
  | Sel g1 _ g2 _ :: _ => readyb s g1 = false /\ readyb s g2 = false
  | _ => False
  end -> ~ can w s i.
Proof.
  intros T B [s' H].
  destruct H; match goal with Q : nth_error _ i = Some ?x |- _ => rewrite T in Q; injection Q as <- end;
    match goal with Q : t_rest t = _ |- _ => rewrite Q in B end; try contradiction;
    try match goal with Q : ready _ _ |- _ => apply readyb_ready in Q end; intuition congruence.
Qed.
Example C74_session_case :
  reach true calm /\
  (forall i t, nth_error (s_threads calm) i = Some t -> t_conn t = 1 -> ~ can quiet calm i) /\
  (forall i t l k, nth_error (s_threads calm) i = Some t -> t_conn t = 1 -> t_rest t <> Lk l :: k) /\
  (exists t, nth_error (s_threads calm) 3 = Some t /\ t_conn t = 1 /\ t_role t = WriterR /\ t_rest t <> []).
Proof.
  split; [apply play_reach|]. split; [|split].
  - intros i t T C. eapply blocked_not; [exact T|].
    destruct i as [|[|[|[|[|i]]]]]; vm_compute in T; try (destruct i; discriminate); injection T as <-; try discriminate C;
      vm_compute; auto.
  - intros i t l k T C. destruct i as [|[|[|[|[|i]]]]]; vm_compute in T; try (destruct i; discriminate); injection T as <-;
      try discriminate C; vm_compute; discriminate.
  - eexists. split; [vm_compute; reflexivity|]. repeat split. discriminate.
Qed.

(** Client 1 stops taking anything.  Its account logs in again (client 2), which closes
    the connection of client 1 with the server's lock held; client 3 logs in. *)
Definition shut_in : state :=
  play false [Client 1; Do (live false) 1 (hello ++ welcome); Client 2; Do (live false) 5 hello; Do (deaf false) 5 [0; 0; 0; 1];
              Client 3; Do (deaf false) 6 (hello ++ [1])].

(** C74: with a TLS library whose Close waits for the other side (before Go 1.16) one
    client that takes nothing keeps all others out: the login of client 3 never goes on,
    whatever the other clients do. *)
Theorem C74_close_refuted : exists s i t, reach false s /\ nth_error (s_threads s) i = Some t /\
  t_conn t = 3 /\ hd_error (t_rest t) = Some (Lk Srv) /\
  forall s', later 1 s s' -> nth_error (s_threads s') i = Some t.
Proof.
  exists shut_in, 6.
  destruct (nth_error (s_threads shut_in) 6) as [t|] eqn:T; [|vm_compute in T; discriminate].
  destruct (nth_error (s_threads shut_in) 5) as [u|] eqn:U; [|vm_compute in U; discriminate].
  exists t. split; [apply play_reach|]. split; [reflexivity|].
  assert (P : t_conn t = 3 /\ hd_error (t_rest t) = Some (Lk Srv)).
  { vm_compute in T. injection T as <-. split; reflexivity. }
  assert (Q : hd_error (t_rest u) = Some (Close 1) /\ t_held u = [Srv]).
  { vm_compute in U. injection U as <-. split; reflexivity. }
  destruct P as [P1 P2], Q as [Q1 Q2]. split; [trivial|]. split; [trivial|].
  destruct (t_rest t) as [|x ki] eqn:RT; [discriminate|]. injection P2 as ->.
  destruct (t_rest u) as [|y kj] eqn:RU; [discriminate|]. injection Q1 as ->.
  intros s' L. apply (close_stays 1 shut_in 6 t ki 5 u kj T RT U RU); [rewrite Q2; now left|vm_compute; reflexivity|exact L].
Qed.
Print Assumptions C74_close_refuted.
