(** Proofs about connecting and reconnecting. *)
From Verif Require Import Base ReconModel.
Local Open Scope Z_scope.

Lemma cruns_trans s tr1 s1 tr2 s2 : cruns s tr1 s1 -> cruns s1 tr2 s2 -> cruns s (tr1 ++ tr2) s2.
Proof. intros A B. induction B; [now rewrite app_nil_r|]. rewrite app_assoc. eapply R_more; eauto. Qed.
Lemma cruns_one s x s' : cstep s x s' -> cruns s [x] s'.
Proof. intros H. change [x] with ([] ++ [x]). eapply R_more; [constructor|exact H]. Qed.
Lemma cruns_more s x s1 tr s2 : cstep s x s1 -> cruns s1 tr s2 -> cruns s (x :: tr) s2.
Proof. intros A B. exact (cruns_trans s [x] s1 tr s2 (cruns_one _ _ _ A) B). Qed.

Definition busy (h : handler) : bool := match h with HSpawn => false | _ => true end.
Record inv (s : client) : Prop := {
  v_live : length (filter busy (c_handlers s)) = if c_online s then 1%nat else 0%nat;
  v_kx : c_kx s = None <-> c_online s = false;
  v_count : (length (c_loops s) + length (c_handlers s) <= c_next s)%nat;
  v_timer : forall t, In (LTop (Some t)) (c_loops s) \/ In (LWait (Some t)) (c_loops s) -> t <= c_now s + pause
}.
Lemma inv_begin : inv begin.
Proof. constructor; cbn; auto; [tauto|]. intros t [[]|[]]. Qed.

Lemma in_swap {A} (x y z : A) l1 l2 : In x (l1 ++ y :: l2) -> x = y \/ In x (l1 ++ z :: l2).
Proof. rewrite !in_app_iff. cbn. intuition. Qed.
Lemma in_drop {A} (x y : A) l1 l2 : In x (l1 ++ l2) -> In x (l1 ++ y :: l2).
Proof. rewrite !in_app_iff. cbn. intuition. Qed.
Ltac lens := rewrite ?app_length in *; cbn [length] in *; rewrite ?app_length in *; cbn [length] in *; lia.

Lemma go_online_cases s o s' r : go_online s o = (s', r) ->
  (s' = s /\ (r = RError \/ r = RCert /\ o = Changed /\ c_online s = false)) \/
  (c_online s = false /\ o = Unwelcome /\ r = RError /\
   s' = mkClient (c_now s) false true (c_kx s) (c_next s) (c_handlers s) (c_loops s) (c_calls s) (c_send s) (c_dead s)) \/
  (c_online s = false /\ o = Welcomed /\ r = ROnline /\
   s' = mkClient (c_now s) true (c_offline s) (Some (c_next s)) (S (c_next s)) (c_handlers s ++ [HRead]) (c_loops s) (c_calls s) (c_send s) (c_dead s)).
Proof. unfold go_online. intros H. destruct (c_online s) eqn:O; [injection H as <- <-; tauto|]. destruct o; injection H as <- <-; tauto. Qed.

Lemma timers_replace s l1 x y l2 l : c_loops s = l1 ++ x :: l2 -> l = l1 ++ y ++ l2 ->
  (forall t, In (LTop (Some t)) y \/ In (LWait (Some t)) y -> In (LTop (Some t)) (c_loops s) \/ In (LWait (Some t)) (c_loops s) \/ t <= c_now s + pause) ->
  (forall t, In (LTop (Some t)) (c_loops s) \/ In (LWait (Some t)) (c_loops s) -> t <= c_now s + pause) ->
  forall t, In (LTop (Some t)) l \/ In (LWait (Some t)) l -> t <= c_now s + pause.
Proof.
  intros L -> Y V t I. rewrite !in_app_iff in I.
  assert (J : In (LTop (Some t)) (c_loops s) \/ In (LWait (Some t)) (c_loops s) \/ In (LTop (Some t)) y \/ In (LWait (Some t)) y).
  { rewrite L, !in_app_iff. cbn [In]. tauto. }
  destruct J as [J|[J|J]]; auto. destruct (Y t J) as [K|[K|K]]; auto.
Qed.
Ltac timers L y := eapply (timers_replace _ _ _ y); [exact L|reflexivity| |eassumption]; cbn [In]; rewrite L; intros ?; rewrite !in_app_iff; cbn [In];
  intuition (try discriminate); try match goal with H : _ = _ (Some _) |- _ => injection H as ->; auto; right; right; lia end.

Lemma inv_step s x s' : inv s -> cstep s x s' -> inv s'.
Proof.
  intros [V1 V2 V3 V4] St. destruct St; unfold with_loops, with_calls, with_send, with_dead, use_kx in *; cbn [c_loops c_handlers c_now c_online c_kx c_next] in *.
  - constructor; cbn; auto. intros t I. specialize (V4 t I). lia.
  - constructor; cbn; auto; [rewrite H0 in V3; lens|]. timers H0 (@nil loop).
  - constructor; cbn; auto; [rewrite H0 in V3; lens|]. timers H0 [LWait t].
  - constructor; cbn; auto; [rewrite H0 in V3; lens|]. timers H0 [LFired].
  - constructor; cbn; auto; [rewrite H0 in V3; lens|]. timers H0 [LTop None].
  - constructor; cbn; auto; [rewrite H0 in V3; lens|]. timers H0 [LTry].
  - destruct (go_online s o) as [s1 r] eqn:G. cbn [fst snd] in *. destruct (go_online_cases _ _ _ _ G) as [[-> [->|(-> & -> & O)]]|[(O & -> & -> & ->)|(O & -> & -> & ->)]].
    + constructor; cbn; auto; [rewrite H0 in V3; lens|]. timers H0 [LReset].
    + constructor; cbn; auto; [rewrite H0 in V3; lens|]. timers H0 (@nil loop).
    + constructor; cbn; auto; [now rewrite O in V1|rewrite V2; tauto|rewrite H0 in V3; lens|]. timers H0 [LReset].
    + constructor; cbn; auto; [rewrite O in V1; rewrite filter_app, app_length, V1; reflexivity|intuition discriminate|rewrite H0 in V3; lens|]. timers H0 [LGreet].
  - destruct (c_kx s) eqn:K; constructor; cbn; rewrite ?K; auto; [rewrite H0 in V3; lens|]. timers H0 [LReset].
  - constructor; cbn; auto; [rewrite H0 in V3; lens|]. timers H0 [LTop (Some (c_now s + pause))].
  - destruct (go_online s o) as [s1 r] eqn:G. cbn [fst snd] in *. destruct (go_online_cases _ _ _ _ G) as [[-> _]|[(O & -> & -> & ->)|(O & -> & -> & ->)]];
      constructor; cbn; auto.
    + now rewrite O in V1.
    + rewrite V2. tauto.
    + rewrite O in V1. rewrite filter_app, app_length, V1. reflexivity.
    + intuition discriminate.
    + lens.
  - destruct (c_kx s) eqn:K; constructor; cbn; rewrite ?K; auto.
  - constructor; cbn; auto.
  - constructor; cbn; auto.
  - rewrite H0 in *. constructor; cbn; auto; [rewrite filter_app in *; cbn in *; rewrite app_length in *; exact V1|lens].
  - rewrite H0 in *. rewrite filter_app in V1. cbn in V1. rewrite app_length in V1. cbn in V1.
    constructor; cbn; auto; [|tauto|lens]. rewrite filter_app, app_length. cbn. destruct (c_online s); lia.
  - rewrite H0 in *. rewrite filter_app in V1. cbn in V1. constructor; cbn; auto; [now rewrite filter_app|lens|].
    intros t [I|I]; apply in_app_or in I as [I|[I|[]]]; auto; try discriminate. injection I as <-. lia.
  - constructor; cbn; auto.
  - destruct (c_kx s) eqn:K; constructor; cbn; rewrite ?K; auto.
Qed.
Lemma inv_runs s tr s' : inv s -> cruns s tr s' -> inv s'.
Proof. intros I R. induction R; eauto using inv_step. Qed.
Lemma inv_reached s : reached s -> inv s.
Proof. intros [tr R]. exact (inv_runs _ _ _ inv_begin R). Qed.

(** * Reconnecting *)

Definition live (x : loop) : Prop := x <> LTop None /\ x <> LWait None.
Definition calm (x : label) : Prop := x <> Offline /\ x <> Auto Changed /\ x <> Auto Unwelcome /\ x <> Call Unwelcome.
Definition trying (s : client) : Prop := c_offline s = false /\ (c_online s = true \/ In HSpawn (c_handlers s) \/ exists x, In x (c_loops s) /\ live x).

Lemma swap_live s l1 x y l2 l : c_loops s = l1 ++ x :: l2 -> l = l1 ++ y :: l2 -> live y -> (exists z, In z (c_loops s) /\ live z) -> exists z, In z l /\ live z.
Proof. intros _ -> L _. exists y. split; auto. apply in_or_app. right. now left. Qed.
Lemma other_live s l1 x y l2 : c_loops s = l1 ++ x :: l2 -> (live x -> live y) -> (exists z, In z (c_loops s) /\ live z) -> exists z, In z (l1 ++ y :: l2) /\ live z.
Proof.
  intros L H (z & I & Z). rewrite L in I. destruct (in_swap z x y l1 l2 I) as [->|J]; [|eauto]. exists y. split; auto. apply in_or_app. right. now left.
Qed.
Ltac lively := let H := fresh in intros H; split; discriminate.

Lemma trying_step s x s' : trying s -> cstep s x s' -> calm x -> trying s'.
Proof.
  intros [F T] St (C1 & C2 & C3 & C4).
  destruct St; unfold trying, with_loops, with_calls, with_send, with_dead, use_kx in *; cbn [c_loops c_handlers c_now c_online c_offline c_kx c_next] in *; auto; try (destruct (C1 eq_refl)).
  - congruence.
  - split; auto. destruct T as [T|[T|T]]; auto. right. right. apply (other_live s l1 (LTop t) (LWait t) l2); auto.
    intros [X _]. split; [discriminate|]. intros E. injection E as ->. now apply X.
  - split; auto. destruct T as [T|[T|T]]; auto. right. right. apply (other_live s l1 (LWait (Some t)) LFired l2); auto. lively.
  - split; auto. destruct T as [T|[T|T]]; auto. right. right. apply (other_live s l1 LFired LTry l2); auto. lively.
  - destruct (go_online s o) as [s1 r] eqn:G. cbn [fst snd] in *. destruct (go_online_cases _ _ _ _ G) as [[-> [->|(-> & -> & O)]]|[(O & -> & -> & ->)|(O & -> & -> & ->)]].
    + split; auto. destruct T as [T|[T|T]]; auto. right. right. apply (other_live s l1 LTry LReset l2); auto. lively.
    + destruct (C2 eq_refl).
    + destruct (C3 eq_refl).
    + cbn. auto.
  - destruct (c_kx s); cbn; auto. split; auto. destruct T as [T|[T|T]]; auto. right. right. apply (other_live s l1 LGreet LReset l2); auto. lively.
  - split; auto. destruct T as [T|[T|T]]; auto. right. right. apply (other_live s l1 LReset (LTop (Some (c_now s + pause))) l2); auto. lively.
  - destruct (go_online s o) as [s1 r] eqn:G. cbn [fst snd] in *. destruct (go_online_cases _ _ _ _ G) as [[-> _]|[(O & -> & -> & ->)|(O & -> & -> & ->)]]; cbn; auto.
    destruct (C4 eq_refl).
  - destruct (c_kx s); cbn; auto.
  - split; auto. destruct T as [T|[T|T]]; auto. right. left. rewrite H0 in T. destruct (in_swap HSpawn HRead HLeave l1 l2 T) as [X|X]; [discriminate|auto].
  - split; auto. right. left. apply in_or_app. right. now left.
  - split; auto. right. right. exists (LTop (Some (c_now s + pause))). split; [apply in_or_app; right; now left|split; discriminate].
  - destruct (c_kx s); cbn; auto.
Qed.
Lemma trying_runs s tr s' : trying s -> cruns s tr s' -> Forall calm tr -> trying s'.
Proof.
  intros T R. induction R as [|tr s1 x s2 R IH St]; [auto|]. intros F. apply Forall_app in F as [F1 F2]. inversion F2; subst. eapply (trying_step s1); eauto.
Qed.

(** What a loop does when nothing else happens. *)
Definition internal (x : label) : Prop := x = Tau \/ x = Time.
Definition attempts_soon (s : client) : Prop := exists tr s2, cruns s tr s2 /\ Forall internal tr /\ c_now s2 <= c_now s + pause /\
  (c_dead s2 = true \/ exists s3, cstep s2 (Auto Welcomed) s3 /\ c_online s3 = true).
Lemma soon_step s x s1 : cstep s x s1 -> internal x -> c_now s1 = c_now s -> attempts_soon s1 -> attempts_soon s.
Proof.
  intros St I N (tr & s2 & R & F & T & E). exists (x :: tr), s2. split; [eapply cruns_more; eauto|]. split; [now constructor|]. split; [lia|exact E].
Qed.
Lemma soon_try s l1 l2 : c_dead s = false -> c_online s = false -> c_loops s = l1 ++ LTry :: l2 -> attempts_soon s.
Proof.
  intros D O L. exists [], s. split; [constructor|]. split; [constructor|]. split; [unfold pause; lia|]. right. eexists. split; [apply (S_auto s l1 l2 Welcomed D L)|].
  unfold go_online. rewrite O. reflexivity.
Qed.
Lemma soon_fired s l1 l2 : c_dead s = false -> c_online s = false -> c_loops s = l1 ++ LFired :: l2 -> attempts_soon s.
Proof.
  intros D O L. eapply soon_step; [apply (S_go s l1 l2 D L O)|now left|reflexivity|]. apply (soon_try _ l1 l2); auto.
Qed.
Lemma soon_wait s l1 l2 t : c_dead s = false -> c_online s = false -> c_loops s = l1 ++ LWait (Some t) :: l2 -> t <= c_now s + pause -> attempts_soon s.
Proof.
  intros D O L B. destruct (Z_le_gt_dec t (c_now s)) as [H|H].
  - eapply soon_step; [apply (S_fire s l1 l2 t D L H)|now left|reflexivity|]. apply (soon_fired _ l1 l2); auto.
  - assert (P : 0 < t - c_now s) by lia. pose proof (S_time s _ P D) as S1. set (s1 := mkClient _ _ _ _ _ _ _ _ _ _) in S1.
    assert (N1 : c_now s1 = t) by (cbn; lia). assert (H1 : t <= c_now s1) by lia.
    pose proof (S_fire s1 l1 l2 t eq_refl L H1) as S2. set (s2 := with_loops _ _) in S2.
    pose proof (S_go s2 l1 l2 eq_refl eq_refl O) as S3. set (s3 := with_loops _ _) in S3.
    exists [Time; Tau; Tau], s3. split; [eapply cruns_more; [exact S1|]; eapply cruns_more; [exact S2|]; apply cruns_one; exact S3|].
    split; [apply Forall_forall; cbn; unfold internal; intuition|]. split; [cbn; lia|]. right. eexists. split; [apply (S_auto s3 l1 l2 Welcomed eq_refl eq_refl)|].
    unfold go_online. change (c_online s3) with (c_online s). rewrite O. reflexivity.
Qed.
Lemma soon_top s l1 l2 t : c_dead s = false -> c_online s = false -> c_offline s = false -> c_loops s = l1 ++ LTop (Some t) :: l2 -> t <= c_now s + pause -> attempts_soon s.
Proof.
  intros D O F L B. eapply soon_step; [apply (S_wait s l1 l2 (Some t) D L F)|now left|reflexivity|]. apply (soon_wait _ l1 l2 t); auto.
Qed.
Lemma soon_live s x : inv s -> c_dead s = false -> c_online s = false -> c_offline s = false -> In x (c_loops s) -> live x -> attempts_soon s.
Proof.
  intros V D O F I [X1 X2]. pose proof I as J. apply in_split in J as (l1 & l2 & L). destruct x as [[t|]|[t|]| | | |].
  - apply (soon_top s l1 l2 t); auto. apply (v_timer s V). auto.
  - congruence.
  - apply (soon_wait s l1 l2 t); auto. apply (v_timer s V). auto.
  - congruence.
  - apply (soon_fired s l1 l2); auto.
  - apply (soon_try s l1 l2); auto.
  - pose proof (S_greet s l1 l2 D L) as St. unfold use_kx in St. rewrite (proj2 (v_kx s V) O) in St.
    exists [Tau], (with_dead s). split; [now apply cruns_one|]. split; [repeat constructor|]. split; [cbn; unfold pause; lia|now left].
  - eapply soon_step; [apply (S_reset s l1 l2 D L)|now left|reflexivity|]. apply (soon_top _ l1 l2 (c_now s + pause)); auto. cbn. lia.
Qed.
Lemma soon_trying s : inv s -> trying s -> c_dead s = false -> c_online s = true \/ attempts_soon s.
Proof.
  intros V [F [T|[T|(x & I & L)]]] D; [now left| |].
  - destruct (c_online s) eqn:O; [now left|right]. apply in_split in T as (l1 & l2 & H). pose proof (S_spawn s l1 l2 D H) as St.
    eapply soon_step; [exact St|now left|reflexivity|]. apply (soon_live _ (LTop (Some (c_now s + pause)))); auto; try reflexivity.
    + exact (inv_step _ _ _ V St).
    + apply in_or_app. right. now left.
    + split; discriminate.
  - destruct (c_online s) eqn:O; [now left|right]. apply (soon_live s x); auto.
Qed.

(** * How often *)

Definition due_one (T : Z) (x : loop) : bool :=
  match x with LTop (Some t) | LWait (Some t) => t <? T + pause | LFired | LTry => true | _ => false end.
Definition due (T : Z) (l : list loop) : nat := length (filter (due_one T) l).
Lemma due_app T l1 l2 : due T (l1 ++ l2) = (due T l1 + due T l2)%nat.
Proof. unfold due. now rewrite filter_app, app_length. Qed.
Lemma due_cons T x l : due T (x :: l) = ((if due_one T x then 1 else 0) + due T l)%nat.
Proof. unfold due. cbn. destruct (due_one T x); reflexivity. Qed.
Definition auto1 (x : label) : nat := match x with Auto _ => 1%nat | _ => 0%nat end.
Lemma autos_app tr x : autos (tr ++ [x]) = (autos tr + auto1 x)%nat.
Proof. unfold autos. rewrite filter_app, app_length. f_equal. destruct x; reflexivity. Qed.
Lemma now_step s x s' : cstep s x s' -> c_now s <= c_now s'.
Proof.
  destruct 1; unfold use_kx; cbn; try lia; try (destruct (c_kx s); cbn; lia).
  - destruct (go_online s o) as [s1 r] eqn:G. cbn. destruct (go_online_cases _ _ _ _ G) as [[-> _]|[(_ & _ & _ & ->)|(_ & _ & _ & ->)]]; cbn; lia.
  - destruct (go_online s o) as [s1 r] eqn:G. cbn. destruct (go_online_cases _ _ _ _ G) as [[-> _]|[(_ & _ & _ & ->)|(_ & _ & _ & ->)]]; cbn; lia.
Qed.
Lemma now_runs s tr s' : cruns s tr s' -> c_now s <= c_now s'.
Proof. induction 1; [lia|]. apply now_step in H0. lia. Qed.
Lemma due_step T s x s' : T <= c_now s -> c_now s' < T + pause -> cstep s x s' -> (auto1 x + due T (c_loops s') <= due T (c_loops s))%nat.
Proof.
  intros B B' St. pose proof (now_step _ _ _ St) as N.
  destruct St; unfold with_loops, with_calls, with_send, with_dead, use_kx in *; cbn [c_loops c_now auto1] in *; try lia;
  try (rewrite H0, !due_app, !due_cons; cbn [due_one]; lia).
  - rewrite H0, !due_app, !due_cons. cbn [due_one]. rewrite (proj2 (Z.ltb_lt t (T + pause)) ltac:(lia)). lia.
  - destruct (go_online s o) as [s1 r] eqn:G. cbn [fst snd] in *. rewrite H0, !due_app, !due_cons. cbn [due_one].
    destruct (go_online_cases _ _ _ _ G) as [[-> [->|(-> & -> & O)]]|[(O & -> & -> & ->)|(O & -> & -> & ->)]]; cbn; lia.
  - destruct (c_kx s); cbn [c_loops with_dead]; [|lia]. rewrite H0, !due_app, !due_cons. cbn [due_one]. lia.
  - rewrite H0, !due_app, !due_cons. cbn [due_one]. rewrite (proj2 (Z.ltb_ge (c_now s + pause) (T + pause)) ltac:(lia)). lia.
  - destruct (go_online s o) as [s1 r] eqn:G. cbn [fst snd] in *. destruct (go_online_cases _ _ _ _ G) as [[-> _]|[(_ & _ & _ & ->)|(_ & _ & _ & ->)]]; cbn [c_loops]; lia.
  - destruct (c_kx s); cbn [c_loops with_dead]; lia.
  - rewrite due_app, due_cons. cbn [due_one]. rewrite (proj2 (Z.ltb_ge (c_now s + pause) (T + pause)) ltac:(lia)). cbn [due filter length]. lia.
  - destruct (c_kx s); cbn [c_loops with_dead]; lia.
Qed.
Lemma due_runs s tr s' : cruns s tr s' -> c_now s' < c_now s + pause -> (autos tr + due (c_now s) (c_loops s') <= due (c_now s) (c_loops s))%nat.
Proof.
  induction 1 as [|tr s1 x s2 R IH St]; intros B; [reflexivity|]. pose proof (now_step _ _ _ St) as N. pose proof (now_runs _ _ _ R) as N'.
  specialize (IH ltac:(lia)). pose proof (due_step _ _ _ _ N' B St). rewrite autos_app. lia.
Qed.
Lemma filter_short {A} (f : A -> bool) l : (length (filter f l) <= length l)%nat.
Proof. induction l as [|x l IH]; cbn; [lia|]. destruct (f x); cbn; lia. Qed.

(** * After /offline *)

Definition pend_one (x : loop) : bool := match x with LWait (Some _) | LFired | LTry => true | _ => false end.
Definition pend (l : list loop) : nat := length (filter pend_one l).
Lemma pend_app l1 l2 : pend (l1 ++ l2) = (pend l1 + pend l2)%nat.
Proof. unfold pend. now rewrite filter_app, app_length. Qed.
Lemma pend_cons x l : pend (x :: l) = ((if pend_one x then 1 else 0) + pend l)%nat.
Proof. unfold pend. cbn. destruct (pend_one x); reflexivity. Qed.
Lemma pend_step s x s' : c_offline s = true -> cstep s x s' -> x <> Online -> c_offline s' = true /\ (auto1 x + pend (c_loops s') <= pend (c_loops s))%nat.
Proof.
  intros F St NO. destruct St; unfold with_loops, with_calls, with_send, with_dead, use_kx in *; cbn [c_loops c_offline auto1] in *; auto; try congruence;
  try (split; [exact F|]; rewrite H0, !pend_app, !pend_cons; cbn [pend_one]; lia).
  - destruct (go_online s o) as [s1 r] eqn:G. cbn [fst snd] in *. rewrite H0, !pend_app, !pend_cons. cbn [pend_one].
    destruct (go_online_cases _ _ _ _ G) as [[-> [->|(-> & -> & O)]]|[(O & -> & -> & ->)|(O & -> & -> & ->)]]; cbn; split; auto; lia.
  - destruct (c_kx s); cbn [c_loops c_offline with_dead]; split; auto. rewrite H0, !pend_app, !pend_cons. cbn [pend_one]. lia.
  - destruct (go_online s o) as [s1 r] eqn:G. cbn [fst snd] in *. destruct (go_online_cases _ _ _ _ G) as [[-> _]|[(_ & _ & _ & ->)|(_ & _ & _ & ->)]]; cbn; auto.
  - destruct (c_kx s); cbn; auto.
  - destruct (c_online s); auto.
  - split; auto. rewrite pend_app, pend_cons. cbn. lia.
  - destruct (c_kx s); cbn; auto.
Qed.
Lemma pend_runs s tr s' : c_offline s = true -> cruns s tr s' -> ~ In Online tr -> c_offline s' = true /\ (autos tr + pend (c_loops s') <= pend (c_loops s))%nat.
Proof.
  intros F R. induction R as [|tr s1 x s2 R IH St]; intros N; [auto|]. rewrite in_app_iff in N. cbn in N.
  destruct IH as [F1 IH]; [tauto|]. destruct (pend_step _ _ _ F1 St) as [F2 P]; [intros ->; tauto|]. rewrite autos_app. split; [auto|lia].
Qed.

(** * A client that does not try *)

Definition idle (s : client) : Prop := c_online s = false /\ c_handlers s = [] /\ c_calls s = [] /\ forall x, In x (c_loops s) -> x = LTop None \/ x = LWait None.
Lemma idle_step s x s' : idle s -> cstep s x s' -> x <> Online -> idle s' /\ attempts [x] = 0%nat.
Proof.
  intros (O & H & C & L) St NO.
  assert (NL : forall l1 y l2, c_loops s = l1 ++ y :: l2 -> y = LTop None \/ y = LWait None) by (intros l1 y l2 E; apply L; rewrite E; apply in_or_app; right; now left).
  assert (NH : forall l1 y l2, c_handlers s <> l1 ++ y :: l2) by (intros l1 y l2 E; rewrite H in E; destruct l1; discriminate).
  assert (NC : forall l1 y l2, c_calls s <> l1 ++ y :: l2) by (intros l1 y l2 E; rewrite C in E; destruct l1; discriminate).
  destruct St; unfold idle, with_loops, with_calls, with_send, with_dead, use_kx in *; cbn [c_loops c_handlers c_calls c_online]; try congruence;
    try (destruct (NH _ _ _ H1)); try (destruct (NC _ _ _ H1)); try (destruct (NL _ _ _ H1) as [X|X]; try discriminate X).
  - auto.
  - repeat split; auto. intros x I. apply L. rewrite H1. now apply in_drop.
  - repeat split; auto. intros x I. injection X as ->. destruct (in_swap x (LWait None) (LTop None) l1 l2 I) as [->|J]; [auto|]. apply L. now rewrite H1.
  - repeat split; auto.
  - destruct (c_kx s); cbn; auto.
Qed.
Lemma idle_runs s tr s' : idle s -> cruns s tr s' -> ~ In Online tr -> idle s' /\ attempts tr = 0%nat.
Proof.
  intros I R. induction R as [|tr s1 x s2 R IH St]; intros N; [auto|]. rewrite in_app_iff in N. cbn in N.
  destruct IH as [I1 A]; [tauto|]. destruct (idle_step _ _ _ I1 St) as [I2 A2]; [intros ->; tauto|]. split; auto.
  unfold attempts in *. rewrite filter_app, app_length. lia.
Qed.
