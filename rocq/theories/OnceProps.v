(** A received message is handled at most once, however often it is delivered and
    however often the two clients die. *)
From Verif Require Import Base XdrModel RpcModel RatchetModel RatchetProofs RatchetSaveProofs RatchetConvModel RatchetConvProofs
  SessionProps RatchetProps RatchetCases CrashModel CrashProofs CrashDead CrashProps CrashCases.
Local Open Scope N_scope.

Section Setting.
Variable hmac : bytes -> bytes -> bytes.
Variable sha256 : bytes -> bytes.
Variable x25519 : bytes -> bytes -> option bytes.
Variable base : bytes -> bytes.
Variable seal : bytes -> bytes -> bytes -> bytes.
Variable unseal : bytes -> bytes -> bytes -> option bytes.
Variable xs : nat -> bytes.
Variable sk : bytes.
Variable E : nat.
Variables a b : ratchet.
Variables t0 t1 : Z.
Hypothesis ST : setting hmac sha256 x25519 base seal unseal xs sk E a b t0 t1.
Notation reach := (reach hmac sha256 x25519 base seal unseal xs a b t0 t1).
Notation memory := (memory hmac sha256 x25519 base seal unseal xs a b).
Notation decrypt := (decrypt hmac sha256 x25519 unseal).
Notation answer := (answer hmac sha256 x25519 base seal unseal xs).

(** What the ratchet on disk says to a message is what the one in memory would. *)
Lemma disk_answer done D p who order now ct r r' o : reach done D -> few (length done) -> load p (D who) = Some r ->
  decrypt (order (mkeys (saved r))) now r ct = (r', o) ->
  answer (memory done) (Recv who order now ct) = match o with Got m => Some m | _ => None end.
Proof.
  intros R F L De. pose proof (setting_disk _ _ _ _ _ _ _ _ _ _ _ _ _ ST done D R F who) as O.
  eapply on_disk_load with (p := p) in O as (r2 & L2 & S & _); eauto; try apply ST. rewrite L in L2. injection L2 as <-.
  set (w := memory done) in *. assert (KE : mkeys (saved r) = mkeys (saved (w_r w who))) by (apply same_saved_keys; unfold same in S; tauto).
  destruct (same_op hmac sha256 x25519 base seal unseal _ _ (Dec (order (mkeys (saved r))) now ct) S) as [_ Q2].
  cbn [apply_op] in Q2. rewrite De in Q2. rewrite KE in Q2. unfold RatchetConvProofs.answer. cbn [step].
  destruct (decrypt (order (mkeys (saved (w_r w who)))) now (w_r w who) ct) as [r3 o3].
  cbn [snd] in Q2. subst o3. now destruct (match find_sent _ _ _ with None => _ | Some _ => _ end).
Qed.

(** Every message taken off the disk's ratchet was readable then. *)
Lemma reach_answers done D : reach done D -> few (length done) ->
  forall e1 e2 who o t ct, done = e1 ++ Recv who o t ct :: e2 -> exists m, answer (memory e1) (Recv who o t ct) = Some m.
Proof.
  induction 1 as [D now T0 I|done D who priv hn mn msg now d' wire on R IH T Tx W|done D who order ct now d' m on R IH T Rx]; intros F e1 e2 w o t c Q.
  - destruct e1; discriminate.
  - destruct wire as [ct|]; [|eauto]. rewrite app_length in F. cbn in F.
    destruct (@exists_last _ (Recv w o t c :: e2)) as (l & x & El); [discriminate|]. rewrite El, app_assoc in Q.
    apply app_inj_tail in Q as [Q <-]. destruct l as [|y l]; [discriminate|]. injection El as <- El. subst. eapply IH; eauto. unfold few in *. lia.
  - destruct on; [|eauto]. rewrite app_length in F. cbn in F.
    assert (F' : few (length done)) by (unfold few in *; lia).
    destruct e2 as [|y e2].
    + apply app_inj_tail in Q as [<- [= -> -> -> ->]].
      inversion Rx as [| |p r r' m0 d'0 b0 L De S|p r r' m0 d'0 L De S]; subst; exists m0; eapply (disk_answer done D p w o t c r r' (Got m0)); eauto.
    + destruct (@exists_last _ (y :: e2)) as (l & x & El); [discriminate|]. rewrite El in Q. rewrite app_comm_cons, app_assoc in Q.
      apply app_inj_tail in Q as [Q <-]. eapply IH; eauto.
Qed.
End Setting.

(** However often the clients have died before, a message that was taken is not
    handled again, and is not taken again. *)
Theorem C58_once :
  forall hmac sha256 x25519 base seal unseal xs sk E a b t0 t1,
  setting hmac sha256 x25519 base seal unseal xs sk E a b t0 t1 ->
  forall done D, reach hmac sha256 x25519 base seal unseal xs a b t0 t1 done D ->
  N.of_nat (length done) < 2 ^ 20 -> (length done + 3 <= E)%nat ->
  forall who order now ct, fair hmac sha256 x25519 base seal unseal xs sk E (start a b) (done ++ [Recv who order now ct]) ->
  forall order' now', In (Recv who order' now' ct) done ->
  forall d' m ondisk, receive hmac sha256 x25519 unseal order ct now (D who) d' m ondisk -> m = None /\ ondisk = false /\ d' = D who.
Proof.
  intros hmac sha256 x25519 base seal unseal xs sk E a b t0 t1 ST done D R F HE who order now ct FA order' now' I d' m on Rx.
  apply in_split in I as (e1 & e2 & Q).
  destruct (reach_answers _ _ _ _ _ _ _ _ _ _ _ _ _ ST done D R F e1 e2 who order' now' ct Q) as [m0 A0].
  destruct (st_start _ _ _ _ _ _ _ _ _ _ _ _ _ ST) as (scrypt & encap & decap & ES).
  assert (L : (length e1 + length e2 + 1 = length done)%nat) by (rewrite Q, app_length; cbn; lia).
  assert (Q' : done = e1 ++ [Recv who order' now' ct] ++ e2) by exact Q.
  pose proof (C17_no_replay hmac sha256 x25519 base seal unseal scrypt encap decap xs sk E a b e1 e2 who order' now' order now ct m0
    (st_box _ _ _ _ _ _ _ _ _ _ _ _ _ ST) (st_base _ _ _ _ _ _ _ _ _ _ _ _ _ ST) (st_keys _ _ _ _ _ _ _ _ _ _ _ _ _ ST) ES) as N0.
  cbv zeta in N0. rewrite Q' in FA. rewrite <- !app_assoc in FA. specialize (N0 FA ltac:(lia) ltac:(lia) A0). rewrite <- Q' in N0.
  assert (X : forall p r r' m1, load p (D who) = Some r -> decrypt hmac sha256 x25519 unseal (order (mkeys (saved r))) now r ct = (r', Got m1) -> False).
  { intros p r r' m1 Lo De. pose proof (disk_answer _ _ _ _ _ _ _ _ _ _ _ _ _ ST done D p who order now ct r r' (Got m1) R F Lo De) as Y.
    cbn [start_world] in Y. unfold memory in Y. change (start_world a b) with (start a b) in Y. congruence. }
  inversion Rx; subst; auto; exfalso; eauto.
Qed.
Print Assumptions C58_once.

(** FALSE claim: a message that arrives is handled in the end.  If the client dies
    after saving the ratchet and before handling the message, the message is never
    handled, although the server delivers it again. *)
Theorem C58_lost_refuted :
  forall hmac sha256 x25519 base seal unseal xs sk E a b t0 t1,
  setting hmac sha256 x25519 base seal unseal xs sk E a b t0 t1 ->
  forall done D, reach hmac sha256 x25519 base seal unseal xs a b t0 t1 done D ->
  forall who order now ct d' m, (t0 <= now <= t1)%Z -> receive hmac sha256 x25519 unseal order ct now (D who) d' (Some m) true ->
  receive hmac sha256 x25519 unseal order ct now (D who) d' None true /\
  let done1 := done ++ [Recv who order now ct] in
  reach hmac sha256 x25519 base seal unseal xs a b t0 t1 done1 (set D who d') /\
  forall done2 D2, reach hmac sha256 x25519 base seal unseal xs a b t0 t1 (done1 ++ done2) D2 ->
    N.of_nat (length (done1 ++ done2)) < 2 ^ 20 -> (length (done1 ++ done2) + 3 <= E)%nat ->
    forall order2 now2, fair hmac sha256 x25519 base seal unseal xs sk E (start a b) ((done1 ++ done2) ++ [Recv who order2 now2 ct]) ->
    forall d2 m2 ondisk2, receive hmac sha256 x25519 unseal order2 ct now2 (D2 who) d2 m2 ondisk2 -> m2 = None.
Proof.
  intros hmac sha256 x25519 base seal unseal xs sk E a b t0 t1 ST done D R who order now ct d' m T Rx.
  split; [inversion Rx; subst; eapply Rx_died; eauto|]. cbv zeta. split.
  - exact (Re_recv _ _ _ _ _ _ _ _ _ _ _ done D who order ct now d' (Some m) true R T Rx).
  - intros done2 D2 R2 F2 H2 order2 now2 FA d2 m2 o2 Rx2.
    eapply (C58_once _ _ _ _ _ _ _ _ _ _ _ _ _ ST _ _ R2 F2 H2 who order2 now2 ct FA order now); eauto.
    apply in_or_app. left. apply in_or_app. right. now left.
Qed.
Print Assumptions C58_lost_refuted.

(** * Cases: alice's client has died after saving and before showing "hi" (CrashCases);
    the server delivers "hi" again. *)
Example C58_once_case : forall d' m ondisk, q_receive same_order hi 9 (D_hi true) d' m ondisk -> m = None /\ ondisk = false /\ d' = D_hi true.
Proof.
  refine (C58_once _ _ _ _ _ _ _ _ _ _ _ _ _ q_setting done_hi D_hi case_reach2 eq_refl _ true same_order 9 hi _ same_order 8 _).
  - cbn. lia.
  - apply q_fairb_ok; [|vm_compute; reflexivity]. repeat constructor; cbn; auto.
  - right. left. reflexivity.
Qed.
Example C58_lost_case : q_receive same_order hi 8 (set (set D0 false d_b1) true d_a1 true) d_a2 (Some (bs "hi")) true.
Proof.
  rewrite set_eq. apply (Rx_handled _ _ _ _ _ _ _ _ q_sk (disk d_a1) (fst q3)); [vm_compute; reflexivity|vm_compute; reflexivity|constructor].
Qed.
