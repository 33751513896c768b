(** Connecting and reconnecting (C72; model in ReconModel.v). *)
From Verif Require Import Base ReconModel ReconProofs.
Local Open Scope Z_scope.

(** The client has one connection at a time: it is online exactly while one goroutine
    reads from a connection, and z.kx is that connection. *)
Theorem C72_one s : reached s ->
  if c_online s then (exists k, c_kx s = Some k) /\ exists l1 h l2, c_handlers s = l1 ++ h :: l2 /\ h <> HSpawn /\ forall h', In h' (l1 ++ l2) -> h' = HSpawn
  else c_kx s = None /\ forall h, In h (c_handlers s) -> h = HSpawn.
Proof.
  intros R. destruct (inv_reached s R) as [V1 V2 _ _].
  assert (Z : forall l, length (filter busy l) = 0%nat -> forall h, In h l -> h = HSpawn).
  { intros l L h I. destruct (busy h) eqn:Bh; [|destruct h; now try discriminate].
    assert (J : In h (filter busy l)) by (apply filter_In; auto). destruct (filter busy l); [destruct J|discriminate]. }
  destruct (c_online s).
  - split; [destruct (c_kx s) eqn:K; [eauto|]; destruct V2 as [V2 _]; discriminate (V2 eq_refl)|].
    assert (X : exists h, In h (c_handlers s) /\ busy h = true).
    { destruct (filter busy (c_handlers s)) as [|h l] eqn:Fl; [discriminate|]. exists h. apply filter_In. rewrite Fl. now left. }
    destruct X as (h & I & Bh). apply in_split in I as (l1 & l2 & L). exists l1, h, l2. split; auto. split; [now intros ->|]. apply Z.
    rewrite L, filter_app in V1. cbn in V1. rewrite Bh, app_length in V1. cbn in V1. rewrite filter_app, app_length. lia.
  - split; [now apply V2|]. now apply Z.
Qed.
Print Assumptions C72_one.

(** A client that was online and was not told to be offline, neither by its user nor by
    the server, and whose server's certificate did not change, is online, or it will try
    to connect within 30 seconds; and it is online when that attempt succeeds.  (Or it
    has crashed, see C72_crash_refuted.) *)
Theorem C72_reconnects s tr s' : reached s -> c_online s = true -> c_offline s = false -> cruns s tr s' ->
  (forall x, In x tr -> x <> Offline /\ x <> Auto Changed /\ x <> Auto Unwelcome /\ x <> Call Unwelcome) -> c_dead s' = false ->
  c_online s' = true \/
  exists tr2 s2, cruns s' tr2 s2 /\ (forall x, In x tr2 -> x = Tau \/ x = Time) /\ c_now s2 <= c_now s' + 30 /\
    (c_dead s2 = true \/ exists s3, cstep s2 (Auto Welcomed) s3 /\ c_online s3 = true).
Proof.
  intros Re O F R C D. pose proof (inv_runs _ _ _ (inv_reached s Re) R) as V.
  assert (T : trying s') by (apply (trying_runs s tr); [split; auto|exact R|apply Forall_forall; exact C]).
  destruct (soon_trying s' V T D) as [H|(tr2 & s2 & A & B & E)]; [now left|right]. exists tr2, s2. split; auto. split; [now apply Forall_forall|exact E].
Qed.
Print Assumptions C72_reconnects.

(** In less than 30 seconds a client makes no more attempts by itself than it has had
    connections since it was started. *)
Theorem C72_rate s tr s' : reached s -> cruns s tr s' -> c_now s' < c_now s + 30 -> (autos tr <= c_next s)%nat.
Proof.
  intros Re R B. pose proof (due_runs _ _ _ R B) as D. pose proof (v_count s (inv_reached s Re)) as V.
  pose proof (filter_short (due_one (c_now s)) (c_loops s)) as X. unfold due in D. lia.
Qed.
Print Assumptions C72_rate.

(** After /offline, and after the server said that the client is not welcome, each
    goroutine that waits or is about to try makes at most one more attempt, and none if
    there is no such goroutine, until the user says /online. *)
Theorem C72_offline s tr s' : c_offline s = true -> cruns s tr s' -> ~ In Online tr ->
  (autos tr <= length (filter (fun x => match x with LWait (Some _) | LFired | LTry => true | _ => false end) (c_loops s)))%nat.
Proof. intros F R N. destruct (pend_runs _ _ _ F R N) as [_ P]. unfold pend in P. unfold pend_one in P at 2. lia. Qed.
Print Assumptions C72_offline.

(** A client that has lost one connection and finds another certificate does not try
    again until the user says /online. *)
Theorem C72_certificate s s1 tr s2 : reached s -> (c_next s <= 1)%nat -> c_calls s = [] -> c_online s = false ->
  cstep s (Auto Changed) s1 -> cruns s1 tr s2 -> ~ In Online tr -> attempts tr = 0%nat /\ c_online s2 = false.
Proof.
  intros Re N C O St R NO. pose proof (v_count s (inv_reached s Re)) as V.
  assert (I : idle s1).
  { remember (Auto Changed) as x. destruct St; try discriminate. injection Heqx as ->. unfold go_online. rewrite O. cbn [fst snd].
    rewrite H0, app_length in V. cbn in V. destruct l1, l2, (c_handlers s) eqn:Hh; cbn in V; try lia. unfold idle, with_loops. cbn. rewrite Hh. repeat split; auto. intros x []. }
  destruct (idle_runs _ _ _ I R NO) as [J A]. split; [exact A|apply J].
Qed.
Print Assumptions C72_certificate.

(** * Cases, and what is false *)

Definition st (now : Z) (on off : bool) kx next hs ls cs : client := mkClient now on off kx next hs ls cs false false.
Lemma cruns_last s x s1 s2 : cstep s x s1 -> s1 = s2 -> cruns s [x] s2.
Proof. intros A <-. now apply cruns_one. Qed.

(** The first connection, and its end. *)
Definition first : client := st 0 true false (Some 0%nat) 1 [HRead] [] [].
Lemma first_runs : cruns begin [Call Welcomed; Tau] first.
Proof.
  eapply cruns_more; [apply (S_call _ [] [] Welcomed); reflexivity|]. cbn. eapply cruns_last; [apply (S_greet_call _ [] []); reflexivity|reflexivity].
Qed.
Lemma first_reached : reached first.
Proof. eexists. exact first_runs. Qed.
(** A client whose loops wait until [t]. *)
Definition waits (now : Z) (next : nat) (ls : list loop) : client := st now false false None next [] ls [].
Lemma lose now next ls k : cruns (st now true false (Some k) next [HRead] ls []) [Break; Tau; Tau; Tau] (waits now next (ls ++ [LWait (Some (now + 30))])).
Proof.
  eapply cruns_more; [apply (S_break _ [] []); reflexivity|]. cbn. eapply cruns_more; [apply (S_leave _ [] []); reflexivity|]. cbn.
  eapply cruns_more; [apply (S_spawn _ [] []); reflexivity|]. cbn. eapply cruns_last; [apply (S_wait _ ls [] (Some (now + pause))); reflexivity|reflexivity].
Qed.
(** One of the loops tries, is welcomed, and the connection breaks at once. *)
Definition flap : list label := [Tau; Tau; Auto Welcomed; Tau; Tau; Tau] ++ [Break; Tau; Tau; Tau].
Lemma flaps now next l1 l2 t : t <= now ->
  cruns (waits now next (l1 ++ LWait (Some t) :: l2)) flap (waits now (S next) (l1 ++ LWait (Some (now + 30)) :: l2 ++ [LWait (Some (now + 30))])).
Proof.
  intros H. apply (cruns_trans _ [Tau; Tau; Auto Welcomed; Tau; Tau; Tau] (st now true false (Some next) (S next) [HRead] (l1 ++ LWait (Some (now + 30)) :: l2) [])).
  - eapply cruns_more; [apply (S_fire _ l1 l2 t); auto|]. eapply cruns_more; [apply (S_go _ l1 l2); reflexivity|].
    eapply cruns_more; [apply (S_auto _ l1 l2 Welcomed); reflexivity|]. cbn [go_online c_online with_loops waits st fst snd].
    eapply cruns_more; [apply (S_greet _ l1 l2); reflexivity|]. cbn. eapply cruns_more; [apply (S_reset _ l1 l2); reflexivity|].
    eapply cruns_last; [apply (S_wait _ l1 l2 (Some (now + pause))); reflexivity|reflexivity].
  - pose proof (lose now (S next) (l1 ++ LWait (Some (now + 30)) :: l2) next) as L. rewrite <- app_assoc in L. exact L.
Qed.
Lemma repeat_snoc {A} (x : A) n : repeat x n ++ [x] = x :: repeat x n.
Proof. induction n as [|n IH]; cbn; [reflexivity|now rewrite IH]. Qed.
Fixpoint storm (n : nat) : list label := match n with O => [] | S n' => flap ++ storm n' end.
Lemma storms now t : t <= now -> forall a next b c, cruns (waits now next (repeat (LWait (Some (now + 30))) b ++ repeat (LWait (Some t)) a ++ repeat (LWait (Some (now + 30))) c))
  (storm a) (waits now (a + next) (repeat (LWait (Some (now + 30))) (b + a + c + a))).
Proof.
  intros H. induction a as [|a IH]; intros next b c.
  - cbn [storm repeat app]. rewrite <- repeat_app. replace (b + 0 + c + 0)%nat with (b + c)%nat by lia. constructor.
  - cbn [storm repeat app]. eapply cruns_trans; [apply (flaps now next _ _ t H)|]. specialize (IH (S next) (S b) (S c)).
    replace (S a + next)%nat with (a + S next)%nat by lia. replace (b + S a + c + S a)%nat with (S b + a + S c + a)%nat by lia.
    rewrite <- app_assoc, repeat_snoc. cbn [repeat] in IH. rewrite <- repeat_snoc, <- app_assoc in IH. exact IH.
Qed.
Lemma storm_autos n : autos (storm n) = n /\ forall x, In x (storm n) -> x <> Time /\ x <> Online /\ x <> Offline.
Proof.
  induction n as [|n [IH1 IH2]]; [split; [reflexivity|intros x []]|]. split.
  - unfold autos in *. cbn [storm]. rewrite filter_app, app_length, IH1. reflexivity.
  - intros x I. cbn [storm] in I. apply in_app_or in I as [I|I]; [|auto]. cbn in I. repeat (destruct I as [<-|I]; [repeat split; discriminate|]). destruct I.
Qed.
Lemma rounds n : exists tr next, cruns begin tr (waits (30 * Z.of_nat n + 30) next (repeat (LWait (Some (30 * Z.of_nat n + 30))) (2 ^ n))) /\ forall x, In x tr -> x <> Online /\ x <> Offline.
Proof.
  induction n as [|n (tr & next & R & NU)].
  - exists ([Call Welcomed; Tau] ++ [Break; Tau; Tau; Tau] ++ [Time]), 1%nat. split.
    + eapply cruns_trans; [apply first_runs|]. eapply cruns_trans; [apply lose|]. eapply cruns_last; [apply (S_time (waits 0 1 [LWait (Some 30)]) 30); [lia|reflexivity]|reflexivity].
    + cbn. intros x I. repeat (destruct I as [<-|I]; [split; discriminate|]). destruct I.
  - exists (tr ++ storm (2 ^ n) ++ [Time]), (2 ^ n + next)%nat. split.
    + eapply cruns_trans; [exact R|]. eapply cruns_trans.
      * pose proof (storms (30 * Z.of_nat n + 30) (30 * Z.of_nat n + 30) (Z.le_refl _) (2 ^ n) next 0 0) as St. cbn [repeat app] in St. rewrite app_nil_r in St. exact St.
      * replace (30 * Z.of_nat (S n) + 30) with (30 * Z.of_nat n + 30 + 30) by lia. replace (0 + 2 ^ n + 0 + 2 ^ n)%nat with (2 ^ S n)%nat by (cbn; lia).
        eapply cruns_last; [apply (S_time (waits (30 * Z.of_nat n + 30) _ _) 30); [lia|reflexivity]|reflexivity].
    + intros x I. rewrite !in_app_iff in I. destruct I as [I|[I|[<-|[]]]]; [auto| |split; discriminate]. now apply (storm_autos (2 ^ n)).
Qed.

(** A client does not try every 30 seconds: when connections break soon after they were
    made (as those of a second client with the same account do, zkserver.go:356-382), the
    number of attempts doubles every 30 seconds. *)
Theorem C72_storm_refuted : forall n : nat, exists tr1 s tr2 s', cruns begin tr1 s /\ c_now s = 30 * Z.of_nat n + 30 /\ cruns s tr2 s' /\
  (forall x, In x (tr1 ++ tr2) -> x <> Online /\ x <> Offline) /\ ~ In Time tr2 /\ autos tr2 = (2 ^ n)%nat.
Proof.
  intros n. destruct (rounds n) as (tr & next & R & NU).
  pose proof (storms (30 * Z.of_nat n + 30) (30 * Z.of_nat n + 30) (Z.le_refl _) (2 ^ n) next 0 0) as St. cbn [repeat app] in St. rewrite app_nil_r in St.
  destruct (storm_autos (2 ^ n)) as [A B]. exists tr. eexists. exists (storm (2 ^ n)). eexists. split; [exact R|]. split; [reflexivity|]. split; [exact St|].
  split; [|split; [|exact A]].
  - intros x I. apply in_app_or in I as [I|I]; [auto|]. now apply B.
  - intros I. now destruct (B _ I).
Qed.
Print Assumptions C72_storm_refuted.

Example C72_rate_case : exists s tr s', reached s /\ cruns s tr s' /\ c_now s' < c_now s + 30 /\ autos tr = c_next s.
Proof.
  destruct (C72_storm_refuted 0) as (tr1 & s & tr2 & s' & R & N & R2 & _ & _ & A). 
  exists (waits 30 1 [LWait (Some 30)]), flap, (waits 30 2 [LWait (Some 60); LWait (Some 60)]). split; [|split; [|split; [cbn; lia|reflexivity]]].
  - exists ([Call Welcomed; Tau] ++ [Break; Tau; Tau; Tau] ++ [Time]). eapply cruns_trans; [apply first_runs|]. eapply cruns_trans; [apply lose|].
    eapply cruns_last; [apply (S_time (waits 0 1 [LWait (Some 30)]) 30); [lia|reflexivity]|reflexivity].
  - apply (flaps 30 1 [] [] 30). lia.
Qed.

(** The user says /offline within 30 seconds after the client reconnected by itself: it
    connects again. *)
Definition again : client := st 30 true false (Some 1%nat) 2 [HRead] [LWait (Some 60)] [].
Lemma again_reached : reached again.
Proof.
  exists (([Call Welcomed; Tau] ++ [Break; Tau; Tau; Tau] ++ [Time]) ++ [Tau; Tau; Auto Welcomed; Tau; Tau; Tau]).
  eapply cruns_trans; [eapply cruns_trans; [apply first_runs|]; eapply cruns_trans; [apply lose|]; eapply cruns_last; [apply (S_time (waits 0 1 [LWait (Some 30)]) 30); [lia|reflexivity]|reflexivity]|].
  cbn. eapply cruns_more; [apply (S_fire _ [] [] 30); cbn; auto; lia|]. eapply cruns_more; [apply (S_go _ [] []); reflexivity|].
  eapply cruns_more; [apply (S_auto _ [] [] Welcomed); reflexivity|]. cbn. eapply cruns_more; [apply (S_greet _ [] []); reflexivity|]. cbn.
  eapply cruns_more; [apply (S_reset _ [] []); reflexivity|]. eapply cruns_last; [apply (S_wait _ [] [] (Some 60)); reflexivity|reflexivity].
Qed.
Definition told : client := st 30 true true (Some 1%nat) 2 [HRead] [LWait (Some 60)] [].
Definition back : list label := [Break; Tau; Tau; Tau; Time; Tau; Tau; Auto Welcomed].
Definition online_again : client := st 60 true true (Some 2%nat) 3 [HRead] [LGreet] [].
Lemma told_runs : cruns told back online_again.
Proof.
  unfold back. eapply cruns_more; [apply (S_break _ [] []); reflexivity|]. eapply cruns_more; [apply (S_leave _ [] []); reflexivity|].
  eapply cruns_more; [apply (S_spawn _ [] []); reflexivity|]. cbn. eapply cruns_more; [apply (S_give_up _ [LWait (Some 60)] [] (Some 60)); reflexivity|]. cbn.
  eapply cruns_more; [apply (S_time _ 30); [lia|reflexivity]|]. cbn. eapply cruns_more; [apply (S_fire _ [] [] 60); cbn; auto; lia|]. cbn.
  eapply cruns_more; [apply (S_go _ [] []); reflexivity|]. cbn. eapply cruns_last; [apply (S_auto _ [] [] Welcomed); reflexivity|reflexivity].
Qed.
(** It is not the case that a client whose user said /offline stays offline until the
    user says /online; and saying it while the client tries to reconnect does nothing. *)
Theorem C72_offline_refuted :
  (exists s s1 tr s2, reached s /\ c_online s = true /\ cstep s Offline s1 /\ cruns s1 tr s2 /\ ~ In Online tr /\ In (Auto Welcomed) tr /\ c_online s2 = true) /\
  (exists s s1 s2, reached s /\ c_loops s <> [] /\ cstep s Offline s1 /\ s1 = s /\ cruns s1 flap s2).
Proof.
  split.
  - exists again, told, back, online_again. split; [exact again_reached|]. split; [reflexivity|]. split; [apply (S_offline again); reflexivity|].
    split; [exact told_runs|]. split; [|split; [|reflexivity]]; cbn; intuition discriminate.
  - exists (waits 30 1 [LWait (Some 30)]), (waits 30 1 [LWait (Some 30)]), (waits 30 2 [LWait (Some 60); LWait (Some 60)]).
    split; [|split; [discriminate|split; [apply (S_offline (waits 30 1 [LWait (Some 30)])); reflexivity|split; [reflexivity|]]]].
    + exists ([Call Welcomed; Tau] ++ [Break; Tau; Tau; Tau] ++ [Time]). eapply cruns_trans; [apply first_runs|]. eapply cruns_trans; [apply lose|].
      eapply cruns_last; [apply (S_time (waits 0 1 [LWait (Some 30)]) 30); [lia|reflexivity]|reflexivity].
    + apply (flaps 30 1 [] [] 30). lia.
Qed.
Print Assumptions C72_offline_refuted.
Example C72_offline_case : (autos back <= 1)%nat /\ autos back = 1%nat.
Proof. split; [|reflexivity]. refine (C72_offline told back online_again eq_refl told_runs _). cbn. intuition discriminate. Qed.

(** A client whose first attempt failed, and one whose attempt after /offline and
    /online failed, never tries again, although nobody told it to be offline. *)
Theorem C72_start_refuted : exists s tr0 s',
  cruns begin [Call Failed] s /\ cruns first (Offline :: tr0 ++ [Online; Call Failed]) s' /\ c_offline s = false /\ c_offline s' = false /\
  (forall x, In x tr0 -> x = Break \/ x = Tau) /\
  forall s0 tr s2, s0 = s \/ s0 = s' -> cruns s0 tr s2 -> ~ In Online tr -> attempts tr = 0%nat /\ c_online s2 = false.
Proof.
  exists (st 0 false false None 0 [] [] []), [Break; Tau; Tau; Tau], (st 0 false false None 1 [] [] []).
  split; [eapply cruns_last; [apply (S_call begin [] [] Failed); reflexivity|reflexivity]|]. split.
  { eapply cruns_more; [apply (S_offline first); reflexivity|]. cbn. eapply cruns_more; [apply (S_break _ [] []); reflexivity|]. cbn.
    eapply cruns_more; [apply (S_leave _ [] []); reflexivity|]. cbn. eapply cruns_more; [apply (S_spawn _ [] []); reflexivity|]. cbn.
    eapply cruns_more; [apply (S_give_up _ [] [] (Some 30)); reflexivity|]. cbn. eapply cruns_more; [apply S_online; reflexivity|]. cbn.
    eapply cruns_last; [apply (S_call _ [] [] Failed); reflexivity|reflexivity]. }
  split; [reflexivity|]. split; [reflexivity|]. split; [cbn; intuition|].
  intros s0 tr s2 H R N. assert (I : idle s0) by (destruct H as [-> | ->]; repeat split; intros x []).
  destruct (idle_runs _ _ _ I R N) as [J A]. split; [exact A|apply J].
Qed.
Print Assumptions C72_start_refuted.

(** The server can crash the client by closing the connection at once, and a connection
    that breaks while a message is written can: z.kx is used after it was set to nil. *)
Theorem C72_crash_refuted :
  (exists s, cruns begin [Call Welcomed; Break; Tau; Tau] s /\ c_dead s = true) /\
  (exists s, cruns first [Tau; Break; Tau; Tau] s /\ c_dead s = true).
Proof.
  split; eexists; split.
  - eapply cruns_more; [apply (S_call _ [] [] Welcomed); reflexivity|]. cbn. eapply cruns_more; [apply (S_break _ [] []); reflexivity|]. cbn.
    eapply cruns_more; [apply (S_leave _ [] []); reflexivity|]. cbn. eapply cruns_last; [apply (S_greet_call _ [] []); reflexivity|reflexivity].
  - reflexivity.
  - eapply cruns_more; [apply S_check; reflexivity|]. cbn. eapply cruns_more; [apply (S_break _ [] []); reflexivity|]. cbn.
    eapply cruns_more; [apply (S_leave _ [] []); reflexivity|]. cbn. eapply cruns_last; [apply S_write; reflexivity|reflexivity].
  - reflexivity.
Qed.
Print Assumptions C72_crash_refuted.

Example C72_one_case : c_online first = true /\ exists k, c_kx first = Some k.
Proof. split; [reflexivity|exact (proj1 (C72_one first first_reached))]. Qed.
Example C72_reconnects_case : exists tr2 s2, cruns (waits 0 1 [LWait (Some 30)]) tr2 s2 /\ (forall x, In x tr2 -> x = Tau \/ x = Time) /\ c_now s2 <= 30 /\
    (c_dead s2 = true \/ exists s3, cstep s2 (Auto Welcomed) s3 /\ c_online s3 = true).
Proof.
  destruct (C72_reconnects first [Break; Tau; Tau; Tau] (waits 0 1 [LWait (Some 30)]) first_reached eq_refl eq_refl (lose 0 1 [] 0)) as [H|H];
    [cbn; intros x I; repeat (destruct I as [<-|I]; [repeat split; discriminate|]); destruct I|reflexivity|discriminate|exact H].
Qed.
Example C72_certificate_case : forall tr s2, cruns (waits 30 1 []) tr s2 -> ~ In Online tr -> attempts tr = 0%nat /\ c_online s2 = false.
Proof.
  intros tr s2. apply (C72_certificate (waits 30 1 [LTry])); [|cbn; lia|reflexivity|reflexivity|apply (S_auto (waits 30 1 [LTry]) [] [] Changed); reflexivity].
  exists (([Call Welcomed; Tau] ++ [Break; Tau; Tau; Tau] ++ [Time]) ++ [Tau; Tau]).
  eapply cruns_trans; [eapply cruns_trans; [apply first_runs|]; eapply cruns_trans; [apply lose|]; eapply cruns_last; [apply (S_time (waits 0 1 [LWait (Some 30)]) 30); [lia|reflexivity]|reflexivity]|].
  cbn. eapply cruns_more; [apply (S_fire _ [] [] 30); cbn; auto; lia|]. eapply cruns_last; [apply (S_go _ [] []); reflexivity|reflexivity].
Qed.
