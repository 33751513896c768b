(** C61 and C62: what the session key exchange gives its two ends against an active
    attacker. *)
From Coq Require Import List Arith Lia Bool.
Import ListNotations.
From Verif Require Import KxModel KxProofs.

(** Run [i] of Initiate has ended: its owner, the server key it was given, the four
    shared keys and what it wrote since. *)
Definition client_done (w : world) (i me : nat) (srv : term) (k1 k2 k3 k4 : term) (out : list term) : Prop :=
  exists m, nth_error (cruns w) i = Some (mkCrun me srv (CEnd m k4 out)) /\
    k1 = Key (R1 i) /\ k2 = i_k2 m /\ k3 = i_k3 m.
(** Run [j] of Respond has ended: its owner, the client key it was told, the four
    shared keys and what it wrote since. *)
Definition server_done (w : world) (j me : nat) (id : term) (k1 k2 k3 k4 : term) (out : list term) : Prop :=
  exists e m x, nth_error (sruns w) j = Some (mkSrun me e (SEnd m x out)) /\ r_id x = id /\
    k1 = r_k1 m /\ k2 = Key (R2 j) /\ k3 = r_k3 x /\ k4 = Key (R4 j).

Definition reachable (w : world) : Prop := steps start w.
Lemma reach_inv w : reachable w -> inv w.
Proof. intro H. exact (proj2 (steps_inv _ _ inv_start H)). Qed.

(** Everything that follows from a client run that ends while the server's long
    term key is not leaked. *)
Lemma client_end w i b3 b4 w' me a k1 k2 k3 k4 out : reachable w -> step w (CFinish i b3 b4) w' ->
  client_done w' i me (Pk (Long a)) k1 k2 k3 k4 out -> ~ In a (leaked w) ->
  inv w' /\ exists j s x o c m, nth_error (sruns w') j = Some s /\ send s = Some (x, o) /\
    nth_error (cruns w') i = Some c /\ cend c = Some (m, k4, out) /\ c_me c = me /\ c_srv c = Pk (Long a) /\
    k2 = i_k2 m /\ k3 = i_k3 m /\
    agree i c m j s x /\ (~ In me (leaked w) -> k4 = Key (R4 j)).
Proof.
  intros R H D L. assert (V := reach_inv _ R). destruct (step_inv _ _ _ V H) as [G V']. split; [exact V'|].
  destruct H as [K H]. cbn in K, H.
  destruct (nth_error (cruns w) i) as [[me0 srv0 [|m|]]|] eqn:E; try discriminate.
  destruct (initiate3 me0 srv0 m b3 b4) as [k|] eqn:F; [|discriminate]. injection H as <-.
  destruct D as (m' & D & -> & -> & ->). cbn in D. rewrite (nth_upd_eq _ _ _ _ E) in D.
  injection D as -> -> -> -> <-.
  apply initiate3_some in F as (c4 & -> & -> & ->).
  inversion K as [|? ? K3 K']; subst. inversion K' as [|? ? K4 _]; subst. clear K K'.
  pose proof V as (C & S & P). apply knows_pub in K4; [|exact P].
  assert (N3 : ~ coin_pub w (R3 i)).
  { destruct (C _ _ E) as [C1 _]. destruct (C1 m' eq_refl) as [_ [B|(b & e & B)]]; [contradiction|].
    intros (p & T & Q). cbn in T. rewrite E in T. cbn in T. injection T as <-. rewrite B in Q. exact Q. }
  destruct (C _ _ E) as [C1 _]. destruct (C1 m' eq_refl) as [(F1 & F2 & F3 & F4) _].
  assert (Q : okmac w (i_k3 m') (Pair (i_cp m') (Pk (Long a))) \/ okbox w (Key c4) 4 (Mac (i_k3 m') (Pair (i_cp m') (Pk (Long a))))).
  { cbn -[coin_pub okmac okbox] in K4. destruct K4 as [[_ [[B _]|B]]|[B _]]; auto.
    exfalso. apply N3. rewrite F1 in B. exact B. }
  destruct (second_proof w i (mkCrun me (Pk (Long a)) (CWait2 m')) m' (Key c4) V E eq_refl Q (or_introl (ex_intro _ a eq_refl)) (ex_intro _ c4 eq_refl))
    as (j & s & x & o & Ej & Dj & A & Q4).
  destruct (proj1 (proj2 G) _ _ Ej) as (s' & Ej' & A1 & A2 & A3 & A4). destruct (A4 _ _ Dj) as (more & Dj').
  assert (s' = s) by (cbn in Ej'; congruence). subst s'.
  exists j, s, x, o, (mkCrun me (Pk (Long a)) (CEnd m' (Key c4) [])), m'.
  split; [exact Ej|]. split; [exact Dj|]. split; [cbn; now apply (nth_upd_eq _ _ _ _ E)|].
  split; [reflexivity|]. split; [reflexivity|]. split; [reflexivity|]. split; [reflexivity|].
  split; [reflexivity|]. split; [exact A|]. intro Lm.
  destruct Q4 as [Q4|Q4]; [|exact Q4]. exfalso.
  destruct Q4 as (p & T & B). cbn in T. rewrite Ej, Dj in T. injection T as <-.
  destruct A as (_ & A & _). cbn in A. rewrite A in B. contradiction.
Qed.

(** * C61: the client's view *)

(** When a client ends the key exchange with the key of a server that is not
    leaked, that server has ended exactly one run of its own with this client,
    and both have the same keys; for the last of the four the client's key must
    not be leaked either. *)
Theorem C61_agreement : forall w i b3 b4 w' me a k1 k2 k3 k4 out,
  reachable w -> step w (CFinish i b3 b4) w' ->
  client_done w' i me (Pk (Long a)) k1 k2 k3 k4 out -> ~ In a (leaked w) ->
  exists j k4' out', server_done w' j a (Pk (Long me)) k1 k2 k3 k4' out' /\
    (~ In me (leaked w) -> k4' = k4) /\
    (forall j' a' id l1 l3 l4 o, server_done w' j' a' id l1 k2 l3 l4 o -> j' = j) /\
    (forall i' me' srv l2 l3 l4 o, client_done w' i' me' srv k1 l2 l3 l4 o -> i' = i).
Proof.
  intros w i b3 b4 w' me a k1 k2 k3 k4 out R H D L.
  destruct (client_end _ _ _ _ _ _ _ _ _ _ _ _ R H D L)
    as (V' & j & [sme se [|rm x' o']] & x & o & c & m & Ej & Dj & Ei & Di & Hme & Hsrv & -> & -> & A & Q4); [discriminate Dj|].
  injection Dj as -> ->. destruct A as (A1 & A2 & A3 & A4 & A5 & A6 & A7). cbn in *.
  destruct D as (m' & D & -> & _).
  exists j, (Key (R4 j)), o. split; [|split; [|split]].
  - exists se, rm, x. assert (sme = a) by congruence. subst sme. split; [exact Ej|].
    split; [now rewrite A2, Hme|]. repeat split; congruence.
  - intro Lm. symmetry. now apply Q4.
  - intros j' a' id l1 l3 l4 o' (e' & m1 & x1 & _ & _ & _ & K & _). congruence.
  - intros i' me' srv l2 l3 l4 o' (m1 & _ & K & _). congruence.
Qed.
Print Assumptions C61_agreement.

(** The keys of the agreeing server's run stay secret for ever. *)
Lemma client_secret w i b3 b4 w' me a k1 k2 k3 k4 out w'' : reachable w -> step w (CFinish i b3 b4) w' ->
  client_done w' i me (Pk (Long a)) k1 k2 k3 k4 out -> ~ In a (leaked w) -> steps w' w'' ->
  inv w'' /\ grows w' w'' /\ exists j, k2 = Key (R2 j) /\ ~ coin_pub w'' (R2 j).
Proof.
  intros R H D L H'.
  destruct (client_end _ _ _ _ _ _ _ _ _ _ _ _ R H D L)
    as (V' & j & s & x & o & c & m & Ej & Dj & Ei & Di & Hme & Hsrv & -> & -> & A & Q4).
  destruct (steps_inv _ _ V' H') as [G V'']. split; [exact V''|]. split; [exact G|].
  destruct A as (A1 & A2 & A3 & A4 & A5 & A6 & A7). exists j. split; [exact A4|].
  intros (p & T & B). assert (T' : target w'' (R2 j) = Some (Pk (CEph i))).
  { apply (g_target _ _ G). cbn. now rewrite Ej, A6. }
  rewrite T' in T. injection T as <-. exact B.
Qed.

(** From then on the attacker never learns the session keys or a secret text the
    client writes, even when long term keys of both leak later. *)
Theorem C61_forward_secrecy : forall w i b3 b4 w' me a k1 k2 k3 k4 out w'',
  reachable w -> step w (CFinish i b3 b4) w' ->
  client_done w' i me (Pk (Long a)) k1 k2 k3 k4 out -> ~ In a (leaked w) -> steps w' w'' ->
  (forall f, ~ knows w'' (Ses f k1 k2 k3 k4)) /\ (forall n, ~ knows w'' (Sec (FromC i n))).
Proof.
  intros w i b3 b4 w' me a k1 k2 k3 k4 out w'' R H D L H'.
  destruct (client_secret _ _ _ _ _ _ _ _ _ _ _ _ _ R H D L H') as (V'' & G & j & -> & N).
  pose proof V'' as (C & S & P). split.
  - intros f K. apply knows_pub in K; [|exact P]. apply N. apply K.
  - intros n K. apply knows_pub in K; [|exact P].
    destruct K as (c & m & k4' & o & E & Dn & _ & K2 & _). apply N.
    destruct D as (m' & D & _ & K & _). apply (proj1 G) in D as (c' & D & _ & _ & M & _).
    assert (c' = c) by congruence. subst c'. specialize (M _ eq_refl). apply cend_cmid in Dn.
    assert (m' = m) by congruence. subst m'. rewrite <- K in K2. exact K2.
Qed.
Print Assumptions C61_forward_secrecy.

(** Whatever box opens under the client's read key later was written by that
    server's run, under that number. *)
Theorem C61_authentic : forall w i b3 b4 w' me a k1 k2 k3 k4 out w'' n t,
  reachable w -> step w (CFinish i b3 b4) w' ->
  client_done w' i me (Pk (Long a)) k1 k2 k3 k4 out -> ~ In a (leaked w) -> steps w' w'' ->
  5 <= n -> knows w'' (Box (Ses true k1 k2 k3 k4) n t) ->
  exists j out', server_done w'' j a (Pk (Long me)) k1 k2 k3 k4 out' /\ nth_error out' (n - 5) = Some t.
Proof.
  intros w i b3 b4 w' me a k1 k2 k3 k4 out w'' n t R H D L H' Hn K.
  destruct (client_secret _ _ _ _ _ _ _ _ _ _ _ _ _ R H D L H') as (V'' & G & j & K2 & N).
  destruct (client_end _ _ _ _ _ _ _ _ _ _ _ _ R H D L)
    as (V' & j1 & s1 & x1 & o1 & c & m & Ej & Dj & Ei & Di & Hme & Hsrv & Hk2 & Hk3 & A & _).
  pose proof V'' as (C & S & P). apply knows_pub in K; [|exact P].
  assert (Hk1 : k1 = Key (R1 i)) by now destruct D as (? & _ & -> & _).
  assert (O : okbox w'' (Ses true k1 k2 k3 k4) n t).
  { do 5 (destruct n as [|n]; [lia|]). cbn -[okbox coin_pub] in K.
    destruct K as [[(_ & B & _) _]|[B _]]; [|exact B]. rewrite K2 in B. contradiction. }
  destruct O as [(j' & s & E & -> & F & _)|[(k & c' & im & E & Dn & -> & F & _)|[(j' & s & x & o & E & Dn & -> & F & _)|
    [(k & c' & im & k4' & o & n' & E & Dn & O & -> & F)|(j' & [sme se [|rm x' o']] & x & o & n' & E & Dn & O & -> & F)]]]];
    try discriminate.
  injection Dn as -> ->. injection F as F1 F2 F3 F4. cbn in F1.
  destruct A as (A1 & A2 & A3 & A4 & A5 & A6 & A7).
  assert (j1 = j') by congruence. subst j1.
  apply (proj1 (proj2 G)) in Ej as (s' & Ej & B1 & B2 & B3 & B4).
  assert (s' = mkSrun sme se (SEnd rm x o)) by congruence. subst s'. cbn in *.
  destruct (B4 _ _ Dj) as (more & B5). injection B5 as B5 _. subst x.
  exists j', o. split.
  - exists se, rm, x1. replace a with (s_me s1) by congruence. split; [congruence|].
    split; [now rewrite A2, Hme|]. repeat split; congruence.
  - cbn. now rewrite Nat.sub_0_r.
Qed.
Print Assumptions C61_authentic.

(** * C62: the server's view *)

Lemma server_secret w j me b k1 k2 k3 k4 out : reachable w ->
  server_done w j me (Pk (Long b)) k1 k2 k3 k4 out -> ~ In b (leaked w) ->
  k4 = Key (R4 j) /\ ~ coin_pub w (R4 j).
Proof.
  intros R (e & m & x & E & F & _ & _ & _ & ->) L. split; [reflexivity|].
  intros (p & T & B). cbn in T. rewrite E in T. cbn in T. injection T as <-. rewrite F in B. contradiction.
Qed.

(** As long as the key of the user whose public key the server was told is not
    leaked, nobody else has the session keys, and the secret texts the server
    writes stay secret. *)
Theorem C62_secrecy : forall w j me b k1 k2 k3 k4 out, reachable w ->
  server_done w j me (Pk (Long b)) k1 k2 k3 k4 out -> ~ In b (leaked w) ->
  (forall f, ~ knows w (Ses f k1 k2 k3 k4)) /\ (forall n, ~ knows w (Sec (FromS j n))).
Proof.
  intros w j me b k1 k2 k3 k4 out R D L. destruct (server_secret _ _ _ _ _ _ _ _ _ R D L) as [-> N].
  pose proof (reach_inv _ R) as (C & S & P). split.
  - intros f K. apply knows_pub in K; [|exact P]. apply N. apply K.
  - intros n K. apply knows_pub in K; [|exact P]. destruct K as (s & x & o & _ & _ & _ & _ & _ & K). now apply N.
Qed.
Print Assumptions C62_secrecy.

Lemma server_peer w j me b k1 k2 k3 k4 out n t : reachable w ->
  server_done w j me (Pk (Long b)) k1 k2 k3 k4 out -> ~ In b (leaked w) ->
  4 <= n -> knows w (Box (Ses false k1 k2 k3 k4) n t) ->
  exists i out', client_done w i b (Pk (Long me)) k1 k2 k3 k4 out' /\ nth_error out' (n - 4) = Some t /\
    target w (R2 j) = Some (Pk (CEph i)).
Proof.
  intros R D L Hn K. destruct (server_secret _ _ _ _ _ _ _ _ _ R D L) as [-> N].
  pose proof (reach_inv _ R) as (C & S & P). apply knows_pub in K; [|exact P].
  assert (O : okbox w (Ses false k1 k2 k3 (Key (R4 j))) n t).
  { do 4 (destruct n as [|n]; [lia|]). cbn -[okbox coin_pub] in K.
    destruct K as [[(_ & _ & _ & B) _]|[B _]]; [|exact B]. contradiction. }
  destruct O as [(j' & s & E & -> & F & _)|[(k & c' & im & E & Dn & -> & F & _)|[(j' & s & x & o & E & Dn & -> & F & _)|
    [(i & c & im & k4' & o & n' & E & Dn & O & -> & F)|(j' & s & x & o & n' & E & Dn & O & -> & F)]]]];
    try discriminate.
  injection F as F1 F2 F3 F4. subst k4'.
  destruct (C _ _ E) as [_ C2]. destruct (C2 _ _ _ Dn) as [(c4 & K4 & Q) _]. injection K4 as <-.
  destruct Q as [Q|(j' & s & x & o' & Ej & Dj & Hj & A)]; [contradiction|]. injection Hj as <-.
  destruct A as (A1 & A2 & A3 & A4 & A5 & A6 & A7).
  destruct D as (e & m & x' & D & Hid & D1 & D2 & D3 & _).
  assert (s = mkSrun me e (SEnd m x' out)) by congruence. subst s. cbn in *. injection Dj as <- <-.
  destruct c as [cme csrv [| |im' k4' o'']]; try discriminate Dn. injection Dn as -> -> ->. cbn in *.
  exists i, o. assert (cme = b) by congruence. subst cme. split; [|split].
  - exists im. subst csrv. split; [exact E|]. repeat split; congruence.
  - cbn. now rewrite Nat.sub_0_r.
  - rewrite D. cbn. congruence.
Qed.

(** Under the same condition, whatever box opens under the server's read key was
    written by that user's client, in a run of Initiate with this server that has
    ended with the same keys, under that number. *)
Theorem C62_authentic : forall w j me b k1 k2 k3 k4 out n t, reachable w ->
  server_done w j me (Pk (Long b)) k1 k2 k3 k4 out -> ~ In b (leaked w) ->
  4 <= n -> knows w (Box (Ses false k1 k2 k3 k4) n t) ->
  exists i out', client_done w i b (Pk (Long me)) k1 k2 k3 k4 out' /\ nth_error out' (n - 4) = Some t.
Proof.
  intros w j me b k1 k2 k3 k4 out n t R D L Hn K.
  destruct (server_peer _ _ _ _ _ _ _ _ _ _ _ R D L Hn K) as (i & o & H1 & H2 & _). eauto.
Qed.
Print Assumptions C62_authentic.

(** Once such a box is there, the keys stay secret for ever. *)
Theorem C62_forward_secrecy : forall w j me b k1 k2 k3 k4 out n t w', reachable w ->
  server_done w j me (Pk (Long b)) k1 k2 k3 k4 out -> ~ In b (leaked w) ->
  4 <= n -> knows w (Box (Ses false k1 k2 k3 k4) n t) -> steps w w' ->
  (forall f, ~ knows w' (Ses f k1 k2 k3 k4)) /\ (forall l, ~ knows w' (Sec (FromS j l))).
Proof.
  intros w j me b k1 k2 k3 k4 out n t w' R D L Hn K H.
  destruct (server_peer _ _ _ _ _ _ _ _ _ _ _ R D L Hn K) as (i & o & _ & _ & T).
  destruct (steps_inv _ _ (reach_inv _ R) H) as [G V'].
  assert (N : ~ coin_pub w' (R2 j)).
  { intros (p & T' & B). rewrite (g_target _ _ G _ _ T) in T'. injection T' as <-. exact B. }
  destruct D as (e & m & x & D & _ & _ & -> & _). pose proof V' as (C & S & P). split.
  - intros f K'. apply knows_pub in K'; [|exact P]. apply N. apply K'.
  - intros l K'. apply knows_pub in K'; [|exact P]. destruct K' as (s & y & o' & _ & _ & _ & K' & _). now apply N.
Qed.
Print Assumptions C62_forward_secrecy.

(** ** Concrete runs *)

(** Decide one term of the attacker's. *)
Ltac known := repeat first
  [ apply K_pk | apply K_txt | apply K_coin | apply K_sk
  | apply K_net; cbn; tauto
  | apply K_forge; [reflexivity|]
  | apply K_key | apply K_encap | apply K_seal | apply K_mac | apply K_pair | apply K_ses ].
Ltac next e := eapply (Steps_cons _ e); [split; [cbn [supplied]; repeat (apply Forall_cons || apply Forall_nil); try solve [known]|reflexivity]|].

(** The attacker only passes messages on: client 1 with server 2.  Both write one
    secret text. *)
Definition p1 : term := Mac (Key (R1 0)) (Pair (Pk (CEph 0)) (Pk (SEph 2 0))).
Definition p2 : term := Mac (Key (R2 0)) (Pair p1 (Pk (Long 1))).
Definition p3 : term := Mac (Key (R3 0)) (Pair p2 (Pk (Long 2))).
Definition honest : list event :=
  [CStart 1 (Pk (Long 2));
   SStart 2 0 (Cph (Pk (Long 2)) (R1 0)) (Box (Key (R1 0)) 0 (Pk (CEph 0)));
   CNext 0 (Box (Key (R1 0)) 0 (Cph (Pk (CEph 0)) (R2 0))) (Box (Key (R2 0)) 1 (Pk (SEph 2 0))) (Box (Key (R2 0)) 2 p1);
   SFinish 0 (Box (Key (R2 0)) 1 (Cph (Pk (SEph 2 0)) (R3 0))) (Box (Key (R3 0)) 2 (Pk (Long 1))) (Box (Key (R3 0)) 3 p2)].
Definition honest_end : event :=
  CFinish 0 (Box (Key (R3 0)) 3 (Cph (Pk (Long 1)) (R4 0))) (Box (Key (R4 0)) 4 p3).
Definition honest_after : list event := [CSecret 0; SSecret 0; Leak 1; Leak 2].

Fixpoint reacts (w : world) (es : list event) : option world :=
  match es with
  | [] => Some w
  | e :: es => match react w e with Some w' => reacts w' es | None => None end
  end.
Definition world_of (es : list event) : world := match reacts start es with Some w => w | None => start end.

Example honest_run :
  let w := world_of honest in
  let w' := world_of (honest ++ [honest_end]) in
  let w'' := world_of (honest ++ [honest_end] ++ honest_after) in
  reachable w /\ step w honest_end w' /\ steps w' w'' /\
  client_done w' 0 1 (Pk (Long 2)) (Key (R1 0)) (Key (R2 0)) (Key (R3 0)) (Key (R4 0)) [] /\
  server_done w' 0 2 (Pk (Long 1)) (Key (R1 0)) (Key (R2 0)) (Key (R3 0)) (Key (R4 0)) [] /\
  leaked w = [] /\ leaked w'' = [2; 1] /\
  knows w'' (Box (Ses false (Key (R1 0)) (Key (R2 0)) (Key (R3 0)) (Key (R4 0))) 4 (Sec (FromC 0 0))) /\
  knows w'' (Box (Ses true (Key (R1 0)) (Key (R2 0)) (Key (R3 0)) (Key (R4 0))) 5 (Sec (FromS 0 0))).
Proof.
  cbv zeta. split; [|split; [|split; [|split; [|split; [|split; [|split; [|split]]]]]]].
  - unfold reachable. next (CStart 1 (Pk (Long 2))).
    next (SStart 2 0 (Cph (Pk (Long 2)) (R1 0)) (Box (Key (R1 0)) 0 (Pk (CEph 0)))).
    next (CNext 0 (Box (Key (R1 0)) 0 (Cph (Pk (CEph 0)) (R2 0))) (Box (Key (R2 0)) 1 (Pk (SEph 2 0))) (Box (Key (R2 0)) 2 p1)).
    next (SFinish 0 (Box (Key (R2 0)) 1 (Cph (Pk (SEph 2 0)) (R3 0))) (Box (Key (R3 0)) 2 (Pk (Long 1))) (Box (Key (R3 0)) 3 p2)).
    apply Steps_nil.
  - split; [|reflexivity]. cbn [supplied honest_end]. repeat (apply Forall_cons || apply Forall_nil); known.
  - next (CSecret 0). next (SSecret 0). next (Leak 1). next (Leak 2). apply Steps_nil.
  - eexists. split; [reflexivity|]. now repeat split.
  - do 3 eexists. split; [reflexivity|]. now repeat split.
  - reflexivity.
  - reflexivity.
  - apply K_net. cbn. tauto.
  - apply K_net. cbn. tauto.
Qed.

(** The same before anything leaks: the premises of C62. *)
Example honest_server :
  let w := world_of (honest ++ [honest_end; CSecret 0]) in
  reachable w /\ server_done w 0 2 (Pk (Long 1)) (Key (R1 0)) (Key (R2 0)) (Key (R3 0)) (Key (R4 0)) [] /\
  leaked w = [] /\
  knows w (Box (Ses false (Key (R1 0)) (Key (R2 0)) (Key (R3 0)) (Key (R4 0))) 4 (Sec (FromC 0 0))).
Proof.
  cbv zeta. split; [|split; [|split]].
  - unfold reachable. next (CStart 1 (Pk (Long 2))).
    next (SStart 2 0 (Cph (Pk (Long 2)) (R1 0)) (Box (Key (R1 0)) 0 (Pk (CEph 0)))).
    next (CNext 0 (Box (Key (R1 0)) 0 (Cph (Pk (CEph 0)) (R2 0))) (Box (Key (R2 0)) 1 (Pk (SEph 2 0))) (Box (Key (R2 0)) 2 p1)).
    next (SFinish 0 (Box (Key (R2 0)) 1 (Cph (Pk (SEph 2 0)) (R3 0))) (Box (Key (R3 0)) 2 (Pk (Long 1))) (Box (Key (R3 0)) 3 p2)).
    next (CFinish 0 (Box (Key (R3 0)) 3 (Cph (Pk (Long 1)) (R4 0))) (Box (Key (R4 0)) 4 p3)).
    next (CSecret 0). apply Steps_nil.
  - do 3 eexists. split; [reflexivity|]. now repeat split.
  - reflexivity.
  - apply K_net. cbn. tauto.
Qed.

(** ** What the server does not get *)

(** Somebody who knows nothing but the public key of user 1 ends a run of Respond
    in that user's name: no client ever ran and nothing is leaked.  The server then
    treats the user as logged in (zkserver.go:666-707), so with C28 the user is
    kept out meanwhile. *)
Definition q1 : term := Mac (Key (Ra 0)) (Pair (Pk (Atk 0)) (Pk (SEph 2 0))).
Definition q2 : term := Mac (Key (R2 0)) (Pair q1 (Pk (Long 1))).
Definition forged : list event :=
  [SStart 2 0 (Cph (Pk (Long 2)) (Ra 0)) (Box (Key (Ra 0)) 0 (Pk (Atk 0)));
   SFinish 0 (Box (Key (R2 0)) 1 (Cph (Pk (SEph 2 0)) (Ra 1))) (Box (Key (Ra 1)) 2 (Pk (Long 1))) (Box (Key (Ra 1)) 3 q2)].

Lemma forged_run : reachable (world_of forged).
Proof.
  unfold reachable. next (SStart 2 0 (Cph (Pk (Long 2)) (Ra 0)) (Box (Key (Ra 0)) 0 (Pk (Atk 0)))).
  eapply (Steps_cons _ (SFinish 0 (Box (Key (R2 0)) 1 (Cph (Pk (SEph 2 0)) (Ra 1))) (Box (Key (Ra 1)) 2 (Pk (Long 1))) (Box (Key (Ra 1)) 3 q2))).
  - split; [|reflexivity]. set (w := mkWorld _ _ _ _).
    assert (K2 : knows w (Rnd (R2 0))).
    { apply (K_decap w (Atk 0)); [|apply K_sk].
      apply (K_open w (Key (Ra 0)) 0); [apply K_net; cbn; tauto|known]. }
    cbn [supplied]. repeat (apply Forall_cons || apply Forall_nil); unfold q2, q1.
    + apply K_seal; [now apply K_key|known].
    + known.
    + apply K_seal; [known|]. apply K_mac; [now apply K_key|]. known.
  - apply Steps_nil.
Qed.

Theorem C62_login_refuted :
  exists w j k1 k2 k3 k4, reachable w /\ server_done w j 2 (Pk (Long 1)) k1 k2 k3 k4 [] /\
    cruns w = [] /\ leaked w = [].
Proof.
  exists (world_of forged), 0. do 4 eexists. split; [exact forged_run|].
  split; [do 3 eexists; split; [reflexivity|now repeat split]|]. now split.
Qed.
Print Assumptions C62_login_refuted.

(** And what the server wrote in such a run can be read once that user's key
    leaks. *)
Theorem C62_later_leak_refuted :
  exists w w' j k1 k2 k3 k4 out, reachable w /\ server_done w j 2 (Pk (Long 1)) k1 k2 k3 k4 out /\
    leaked w = [] /\ steps w w' /\ knows w' (Sec (FromS j 0)).
Proof.
  exists (world_of (forged ++ [SSecret 0])), (world_of (forged ++ [SSecret 0; Leak 1])), 0. do 5 eexists.
  split.
  { assert (R := forged_run). unfold reachable in *.
    assert (T : forall a b c, steps a b -> steps b c -> steps a c).
    { intros a b c Hab. induction Hab; eauto using Steps_cons. }
    refine (T _ _ _ R _). next (SSecret 0). apply Steps_nil. }
  split; [do 3 eexists; split; [reflexivity|now repeat split]|]. split; [reflexivity|].
  split; [next (Leak 1); apply Steps_nil|]. set (w := world_of _).
  assert (K2 : knows w (Rnd (R2 0))).
  { apply (K_decap w (Atk 0)); [|apply K_sk]. apply (K_open w (Key (Ra 0)) 0); [apply K_net; cbn; tauto|known]. }
  assert (K4 : knows w (Rnd (R4 0))).
  { apply (K_decap w (Long 1)); [|apply K_leak; cbn; tauto].
    apply (K_open w (Key (Ra 1)) 3); [apply K_net; cbn; tauto|known]. }
  apply (K_open w (Ses true (Key (Ra 0)) (Key (R2 0)) (Key (Ra 1)) (Key (R4 0))) 5); [apply K_net; cbn; tauto|].
  apply K_ses; [known|now apply K_key|known|now apply K_key].
Qed.
Print Assumptions C62_later_leak_refuted.
