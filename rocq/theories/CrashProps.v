(** C45: a client that dies while sending or receiving. *)
From Verif Require Import Base XdrModel RpcModel RatchetModel RatchetProofs RatchetSaveProofs RatchetConvModel RatchetConvProofs
  SessionProps RatchetProps CrashModel CrashProofs CrashDead.
Local Open Scope N_scope.

(** Wherever the client dies or fails, the ratchet on disk is the one from before,
    or the new one; a received message is looked at only when the new one is on
    disk, and nothing is on disk of a message that was not handed over. *)
Theorem C45_atomic :
  forall hmac sha256 x25519 base seal unseal p d d' ondisk now,
  (forall priv hn mn msg wire, transmit hmac sha256 x25519 base seal priv hn mn msg now d d' wire ondisk ->
     (wire = None -> ondisk = false) /\
     if ondisk then exists p0 r r' ct, load p0 d = Some r /\ wire = Some ct /\
       encrypt hmac sha256 x25519 base seal r priv hn mn msg = (r', Some ct) /\ mget d' ratchet_file = Some (image now r')
     else load p d' = load p d) /\
  (forall order ct m, receive hmac sha256 x25519 unseal order ct now d d' m ondisk ->
     (m <> None -> ondisk = true) /\
     if ondisk then exists p0 r r' m', load p0 d = Some r /\ (m = None \/ m = Some m') /\
       decrypt hmac sha256 x25519 unseal (order (mkeys (saved r))) now r ct = (r', Got m') /\ mget d' ratchet_file = Some (image now r')
     else load p d' = load p d).
Proof.
  intros hmac sha256 x25519 base seal unseal p d d' ondisk now. split.
  - intros priv hn mn msg wire H. destruct H as [|p0 r r' ct d' b L E S]; [split; auto|].
    apply saving_reads in S. split; [discriminate|]. destruct b.
    + exists p0, r, r', ct. auto.
    + unfold load. now rewrite S.
  - intros order ct m H. destruct H as [|p0 r r' o L E|p0 r r' m d' b L E S|p0 r r' m d' L E S]; [split; congruence|split; congruence|..];
      apply saving_reads in S.
    + split; [congruence|]. destruct b; [exists p0, r, r', m; auto|]. unfold load. now rewrite S.
    + split; [auto|]. exists p0, r, r', m. auto.
Qed.
Print Assumptions C45_atomic.

(** The setting of the other theorems: a conversation of two contacts whose clients
    keep their ratchets on disk, over at most 31 days, the lifetime of saved keys. *)
Record setting (hmac : bytes -> bytes -> bytes) (sha256 : bytes -> bytes) (x25519 : bytes -> bytes -> option bytes)
  (base : bytes -> bytes) (seal : bytes -> bytes -> bytes -> bytes) (unseal : bytes -> bytes -> bytes -> option bytes)
  (xs : nat -> bytes) (sk : bytes) (E : nat) (a b : ratchet) (t0 t1 : Z) : Prop := {
  st_box : box_law seal unseal;
  st_base : forall x, length (base x) = 32%nat;
  st_hmac : forall k l, length (hmac k l) = 32%nat;
  st_xs : forall e, length (xs e) = 32%nat;
  st_keys : keys_law hmac sha256 x25519 base xs sk E;
  st_start : exists scrypt encap decap, established hmac sha256 base seal unseal scrypt encap decap xs sk a b;
  st_halves : half_ok (my_half a) /\ half_ok (their_half a) /\ half_ok (my_half b) /\ half_ok (their_half b);
  st_t0 : (0 <= t0)%Z /\ (t0 mod 1000000000 = 0)%Z;
  st_t1 : (t1 <= t0 + 31 * 86400 * 1000000000)%Z /\ (t1 < 2 ^ 63)%Z
}.

Section Setting.
Variable hmac : bytes -> bytes -> bytes.
Variable sha256 : bytes -> bytes.
Variable x25519 : bytes -> bytes -> option bytes.
Variable base : bytes -> bytes.
Variable seal : bytes -> bytes -> bytes -> bytes.
Variable unseal : bytes -> bytes -> bytes -> option bytes.
Variable xs : nat -> bytes.
Variable sk : bytes.
Variable E : nat.
Variables a b : ratchet.
Variables t0 t1 : Z.
Hypothesis ST : setting hmac sha256 x25519 base seal unseal xs sk E a b t0 t1.
Notation reach := (reach hmac sha256 x25519 base seal unseal xs a b t0 t1).
Notation memory := (memory hmac sha256 x25519 base seal unseal xs a b).
Notation fair := (fair hmac sha256 x25519 base seal unseal xs sk E).
Notation decrypt := (decrypt hmac sha256 x25519 unseal).
Notation encrypt := (encrypt hmac sha256 x25519 base seal).
Notation inv := (inv hmac sha256 x25519 base seal xs sk).

Lemma setting_start : exists ma mb, a = start_alice hmac base xs sk ma mb /\ b = start_bob hmac xs sk ma mb.
Proof.
  destruct (st_start _ _ _ _ _ _ _ _ _ _ _ _ _ ST) as (scrypt & encap & decap & ES).
  eapply established_start; [|exact ES]. apply (st_box _ _ _ _ _ _ _ _ _ _ _ _ _ ST).
Qed.

Lemma setting_kept : kept t0 t1 0 a /\ kept t0 t1 0 b.
Proof.
  destruct setting_start as (ma & mb & -> & ->). destruct (st_halves _ _ _ _ _ _ _ _ _ _ _ _ _ ST) as (A1 & A2 & A3 & A4).
  pose proof (st_hmac _ _ _ _ _ _ _ _ _ _ _ _ _ ST) as H. pose proof (st_base _ _ _ _ _ _ _ _ _ _ _ _ _ ST) as B.
  pose proof (st_xs _ _ _ _ _ _ _ _ _ _ _ _ _ ST) as X. cbn [my_half their_half start_alice start_bob] in *.
  assert (S0 : saved_kept t0 t1 0 []) by (split; [auto|split; constructor]).
  split; (split; [|split; [reflexivity|split; [reflexivity|split; [reflexivity|exact S0]]]]);
    cbn [start_alice start_bob root_key send_header recv_header next_send_header next_recv_header send_chain recv_chain
        send_private recv_public my_half their_half kx_private]; rewrite ?H, ?B, ?X;
    repeat (split; [first [reflexivity|assumption]|]); try exact Logic.I; assumption.
Qed.

Lemma setting_disk done D : reach done D -> few (length done) -> forall who, on_disk t0 t1 (length done) (w_r (memory done) who) (D who).
Proof.
  intros R F. destruct setting_kept as [KA KB]. eapply reach_disk; eauto; apply ST.
Qed.

Lemma setting_inv evs : fair (start a b) evs -> (length evs + 2 <= E)%nat -> N.of_nat (length evs) < 2 ^ 32 - 1 ->
  inv (memory evs) /\ (forall who, (i_cur (w_i (memory evs) who) <= 1 + length evs)%nat) /\
  (length (w_log (memory evs)) <= length evs)%nat.
Proof.
  intros F HE HL. destruct setting_start as (ma & mb & Ea & Eb).
  destruct (st_box _ _ _ _ _ _ _ _ _ _ _ _ _ ST) as [B1 B2]. destruct (st_keys _ _ _ _ _ _ _ _ _ _ _ _ _ ST) as (K1 & K2 & K3).
  pose proof (st_base _ _ _ _ _ _ _ _ _ _ _ _ _ ST) as BL.
  assert (I0 : inv (start a b)).
  { subst. unshelve (eapply start_inv; eassumption); assumption. }
  change (memory evs) with (fst (run hmac sha256 x25519 base seal unseal xs (start a b) evs)).
  assert (C0 : forall who, i_cur (w_i (start a b) who) = 1%nat) by (intros [|]; reflexivity).
  destruct (run_ok hmac sha256 x25519 base seal unseal xs sk E B1 B2 BL K1 K2 K3 evs (start a b) I0 F) as (I1 & _ & C1 & L1).
  - cbn [start w_log length]. lia.
  - intros who. rewrite C0. lia.
  - split; [exact I1|]. split; [|exact L1]. intros who. rewrite <- (C0 who). apply C1.
Qed.
End Setting.

(** However often the two clients have died, except between handing a message over
    and having saved the ratchet: what each reads from disk behaves, in whatever
    operations follow, as if no client had ever been stopped. *)
Theorem C45_crashes :
  forall hmac sha256 x25519 base seal unseal xs sk E a b t0 t1,
  setting hmac sha256 x25519 base seal unseal xs sk E a b t0 t1 ->
  forall done D, reach hmac sha256 x25519 base seal unseal xs a b t0 t1 done D -> N.of_nat (length done) < 2 ^ 20 ->
  forall who p, exists r, load p (D who) = Some r /\
    forall ops, outputs hmac sha256 x25519 base seal unseal r ops =
      outputs hmac sha256 x25519 base seal unseal (w_r (fst (run hmac sha256 x25519 base seal unseal xs (start a b) done)) who) ops.
Proof.
  intros hmac sha256 x25519 base seal unseal xs sk E a b t0 t1 ST done D R F who p.
  pose proof (setting_disk _ _ _ _ _ _ _ _ _ _ _ _ _ ST done D R F who) as O.
  eapply on_disk_load in O as (r & L & S & _); eauto; try apply ST. exists r. split; [exact L|]. intros ops. now apply same_outputs.
Qed.
Print Assumptions C45_crashes.

(** So a message is readable by the receiver's client when it arrives, whatever
    deaths came before, if it is within the limits of C15. *)
Theorem C45_readable :
  forall hmac sha256 x25519 base seal unseal xs sk E a b t0 t1,
  setting hmac sha256 x25519 base seal unseal xs sk E a b t0 t1 ->
  forall done D, reach hmac sha256 x25519 base seal unseal xs a b t0 t1 done D -> N.of_nat (length done) < 2 ^ 20 ->
  (length done + 3 <= E)%nat ->
  forall en who order now, let w := fst (run hmac sha256 x25519 base seal unseal xs (start a b) done) in
  fair hmac sha256 x25519 base seal unseal xs sk E (start a b) (done ++ [Recv who order now (en_ct en)]) ->
  In en (w_log w) -> en_from en = negb who -> en_plain en <> [] -> en_index en <= 80 -> snd (en_label en) <= 80 ->
  (forall order' now', ~ In (Recv who order' now' (en_ct en)) done) ->
  forall p, exists r r', load p (D who) = Some r /\
    decrypt hmac sha256 x25519 unseal (order (mkeys (saved r))) now r (en_ct en) = (r', Got (en_plain en)).
Proof.
  intros hmac sha256 x25519 base seal unseal xs sk E a b t0 t1 ST done D R F HE en who order now w FA I1 I2 I3 I4 I5 NR p.
  pose proof (setting_disk _ _ _ _ _ _ _ _ _ _ _ _ _ ST done D R F who) as O.
  eapply on_disk_load in O as (r & L & S & _); eauto; try apply ST.
  destruct (st_start _ _ _ _ _ _ _ _ _ _ _ _ _ ST) as (scrypt & encap & decap & ES).
  pose proof (C15_first_delivery hmac sha256 x25519 base seal unseal scrypt encap decap xs sk E a b done who order now en
    (st_box _ _ _ _ _ _ _ _ _ _ _ _ _ ST) (st_base _ _ _ _ _ _ _ _ _ _ _ _ _ ST) (st_keys _ _ _ _ _ _ _ _ _ _ _ _ _ ST) ES FA HE) as A.
  assert (Fl : N.of_nat (length done) < 2 ^ 32 - 2) by lia. specialize (A Fl I1 I2 I3 I4 I5).
  assert (A' := A). clear A. lapply A'; clear A'.
  2: { intros e1 e2 o' n' Q. exfalso. apply (NR o' n'). rewrite Q. apply in_or_app. right. now left. }
  fold w. intros A. unfold answer in A. cbn [step] in A. change (memory _ _ _ _ _ _ _ _ _ done) with w in S.
  assert (KE : mkeys (saved r) = mkeys (saved (w_r w who))) by (apply same_saved_keys; unfold same in S; tauto).
  destruct (same_op hmac sha256 x25519 base seal unseal _ _ (Dec (order (mkeys (saved r))) now (en_ct en)) S) as [_ Q2].
  cbn [apply_op] in Q2. rewrite KE in *.
  destruct (decrypt hmac sha256 x25519 unseal (order (mkeys (saved (w_r w who)))) now r (en_ct en)) as [r1 o1] eqn:E1.
  destruct (decrypt hmac sha256 x25519 unseal (order (mkeys (saved (w_r w who)))) now (w_r w who) (en_ct en)) as [r2 o2].
  cbn [snd] in Q2. subst o2. exists r, r1. split; [exact L|]. rewrite KE, E1. f_equal.
  destruct (match find_sent _ _ _ with None => _ | Some _ => _ end) as [i' id].
  cbn [snd real_result] in A. destruct o1; try discriminate. now injection A as ->.
Qed.
Print Assumptions C45_readable.

(** A box opens only under the key that sealed it. *)
Definition key_law (seal : bytes -> bytes -> bytes -> bytes) (unseal : bytes -> bytes -> bytes -> option bytes) : Prop :=
  forall k n k' n' m x, unseal k n (seal k' n' m) = Some x -> k = k'.

(** The client dies after handing a message over and before saving the ratchet, in
    the middle of its chain.  The next message it sends brings its ratchet to where
    it would be had the first been saved and the second never been sent, so what it
    sends and receives afterwards is as the peer expects.  But the second message
    itself is refused by a peer that took the first. *)
Theorem C45_one_lost :
  forall hmac sha256 x25519 base seal unseal xs sk E a b t0 t1,
  setting hmac sha256 x25519 base seal unseal xs sk E a b t0 t1 -> key_law seal unseal ->
  forall done D, reach hmac sha256 x25519 base seal unseal xs a b t0 t1 done D -> N.of_nat (length done) < 2 ^ 20 - 1 ->
  let run := run hmac sha256 x25519 base seal unseal xs in
  forall who, ratchet_flag (w_r (fst (run (start a b) done)) who) = false ->
  forall priv hn mn msg now d1 ct,
  transmit hmac sha256 x25519 base seal priv hn mn msg now (D who) d1 (Some ct) false ->
  forall priv' hn' mn' msg' now' d2 ct', length hn' = 24%nat -> length mn' = 24%nat -> (t0 <= now' <= t1)%Z ->
  transmit hmac sha256 x25519 base seal priv' hn' mn' msg' now' d1 d2 (Some ct') true ->
  (forall p, exists r, load p d2 = Some r /\ forall ops, outputs hmac sha256 x25519 base seal unseal r ops =
     outputs hmac sha256 x25519 base seal unseal (w_r (fst (run (start a b) (done ++ [Send who hn mn msg]))) who) ops) /\
  (forall evs2 order t m evs3,
   let evs := done ++ [Send who hn mn msg] ++ evs2 ++ [Recv (negb who) order t ct] ++ evs3 in
   fair hmac sha256 x25519 base seal unseal xs sk E (start a b) evs ->
   (length evs + 3 <= E)%nat -> N.of_nat (length evs) < 2 ^ 32 - 2 ->
   real_result (snd (step hmac sha256 x25519 base seal unseal xs (fst (run (start a b) (done ++ [Send who hn mn msg] ++ evs2)))
                       (Recv (negb who) order t ct))) = Some m ->
   forall order' t', let r := w_r (fst (run (start a b) evs)) (negb who) in
   decrypt hmac sha256 x25519 unseal (order' (mkeys (saved r))) t' r ct' = (r, Fail)).
Proof.
  intros hmac sha256 x25519 base seal unseal xs sk E a b t0 t1 ST KL done D R F run0 who FL priv hn mn msg now d1 ct T1
    priv' hn' mn' msg' now' d2 ct' L1 L2 TN T2.
  set (w := fst (run0 (start a b) done)) in *.
  assert (F' : few (length done)) by (unfold few; lia).
  pose proof (setting_disk _ _ _ _ _ _ _ _ _ _ _ _ _ ST done D R F' who) as O.
  change (memory hmac sha256 x25519 base seal unseal xs a b done) with w in O.
  inversion T1 as [|p r r1 ct0 d0 b0 LD EN SV]; subst. inversion T2 as [|p2 r2 r3 ct2 d3 b3 LD2 EN2 SV2]; subst.
  apply saving_reads in SV. assert (LD3 : load p2 (D who) = Some r2) by (unfold load in *; now rewrite <- SV).
  assert (Load : forall p r, load p (D who) = Some r -> same r (w_r w who) /\ kept t0 t1 (length done) r).
  { intros p0 r0 X. eapply on_disk_load in O as (y & Y1 & Y2 & Y3); eauto; try apply ST.
    rewrite X in Y1. injection Y1 as <-. auto. }
  destruct (Load _ _ LD) as [S1 K1]. destruct (Load _ _ LD3) as [S2 K2].
  assert (Flag : forall r, same r (w_r w who) -> ratchet_flag r = false) by (intros x X; unfold same in X; rewrite <- FL; tauto).
  assert (Any : forall r q q' h m x, ratchet_flag r = false ->
    encrypt hmac sha256 x25519 base seal r q h m x = encrypt hmac sha256 x25519 base seal r q' h m x).
  { intros x q q' h m0 x0 X. unfold encrypt. now rewrite X. }
  assert (Sent : forall r q h m x r' c, same r (w_r w who) -> encrypt hmac sha256 x25519 base seal r q h m x = (r', Some c) ->
    exists r0, encrypt hmac sha256 x25519 base seal (w_r w who) (xs (fst (fst (snd (ideal_send (w_i w who)))))) h m x = (r0, Some c) /\
      same r' r0).
  { intros r0 q h m0 x r' c SA EE. rewrite (Any r0 q (xs (fst (fst (snd (ideal_send (w_i w who)))))) h m0 x (Flag _ SA)) in EE.
    destruct (same_op hmac sha256 x25519 base seal unseal _ _ (Enc (xs (fst (fst (snd (ideal_send (w_i w who)))))) h m0 x) SA) as [Q1 Q2].
    cbn [apply_op] in Q1, Q2. rewrite EE in Q1, Q2. cbn [fst snd] in Q1, Q2.
    destruct (encrypt hmac sha256 x25519 base seal (w_r w who) _ h m0 x) as [y [z|]] eqn:EY; cbn [fst snd] in Q1, Q2;
      [|discriminate]. exists y. split; [congruence|exact Q1]. }
  destruct (Sent _ _ _ _ _ _ _ S1 EN) as (ra & EA & SA). destruct (Sent _ _ _ _ _ _ _ S2 EN2) as (rb & EB & SB).
  assert (rb = ra).
  { unfold encrypt in EA, EB. rewrite FL in EA, EB. cbn [negb] in EA, EB. congruence. }
  subst rb.
  assert (W1 : w_r (fst (run0 (start a b) (done ++ [Send who hn mn msg]))) who = ra).
  { unfold run0. rewrite run_app, run_one. fold run0. fold w. cbn [step].
    destruct (ideal_send (w_i w who)) as [i' l]. cbn [snd] in EA. rewrite EA. cbn [fst w_r]. apply set_eq. }
  split.
  - intros p0. apply saving_reads in SV2.
    assert (KO : kept t0 t1 (S (length done)) r3).
    { rewrite (Any r2 priv' (xs 0%nat)) in EN2 by (now apply Flag).
      assert (Q := kept_op hmac sha256 x25519 base seal unseal (st_hmac _ _ _ _ _ _ _ _ _ _ _ _ _ ST) t0 t1 (length done) r2
        (Enc (xs 0%nat) hn' mn' msg') K2 (st_xs _ _ _ _ _ _ _ _ _ _ _ _ _ ST 0%nat)). cbn [apply_op] in Q. now rewrite EN2 in Q. }
    assert (O2 : on_disk t0 t1 (S (length done)) ra d2).
    { exists (S (length done)), r3, now'. split; [exact SV2|]. split; [exact SB|]. split; [exact KO|]. split; [lia|exact TN]. }
    eapply on_disk_load with (p := p0) in O2 as (y & Y1 & Y2 & _); eauto; try apply ST; [|unfold few; lia].
    exists y. split; [exact Y1|]. intros ops. rewrite W1. now apply same_outputs.
  - intros evs2 order t m evs3 evs FA HE HL A order' t' rr.
    unfold evs in FA, HE, HL. apply fair_app in FA as [FA1 FA2]. fold run0 in FA2. fold w in FA2.
    rewrite !app_length in HE, HL. cbn [length] in HE, HL.
    destruct (setting_inv _ _ _ _ _ _ _ _ _ _ _ _ _ ST done FA1) as (I & C & LG); [lia|lia|].
    change (memory hmac sha256 x25519 base seal unseal xs a b done) with w in I, C, LG.
    destruct (st_box _ _ _ _ _ _ _ _ _ _ _ _ _ ST) as [B1 B2]. destruct (st_keys _ _ _ _ _ _ _ _ _ _ _ _ _ ST) as (J1 & J2 & J3).
    pose proof (st_base _ _ _ _ _ _ _ _ _ _ _ _ _ ST) as BL.
    unshelve epose proof (resend_refused hmac sha256 x25519 base seal unseal xs sk E B1 B2 BL J1 J2 J3 w who hn mn msg ct hn' mn' msg' ct'
      _ _ ra ra evs2 order t m evs3 order' t' I FL EA EB FA2 _ _ L1 L2 _ _) as [_ Q].
    + lia.
    + intros x. specialize (C x). lia.
    + intros e x He U. unfold encrypt in EB. rewrite FL in EB. cbn [negb] in EB. injection EB as _ EB. subst ct'.
      assert (HL64 : length (header_plain (send_count (w_r w who)) (prev_count (w_r w who)) (base (send_private (w_r w who))) mn') = 64%nat)
        by (apply header_length; auto).
      destruct (ct_parts hn' (seal (send_header (w_r w who)) hn' (header_plain (send_count (w_r w who)) (prev_count (w_r w who)) (base (send_private (w_r w who))) mn'))
        (seal (hmac (send_chain (w_r w who)) message_label) mn' msg') L1) as (P1 & P2 & _); [now rewrite B2, HL64|].
      rewrite P1, P2 in U. now apply KL in U.
    + unfold answer. unfold run0 in A. rewrite run_app in A. exact A.
    + unfold rr, evs, run0. rewrite run_app. fold run0. fold w. exact Q.
Qed.
Print Assumptions C45_one_lost.

Lemma same_lookup x y hk n k : same_saved x y -> lookup x hk n = Some k -> exists k', lookup y hk n = Some k' /\ sk_key k' = sk_key k.
Proof.
  intros S L. unfold lookup in *. pose proof (same_mget x y hk S) as M. destruct (mget x hk) as [u|]; [|discriminate].
  destruct (mget y hk) as [v|]; [|contradiction]. pose proof (same_mget_keys u v n M) as M2. rewrite L in M2.
  destruct (mget v n); [|contradiction]. eauto.
Qed.

(** The client dies after handing a message over and before saving the ratchet, the
    message being the first of a new chain (the first after having received one),
    and the peer takes that message: from then on neither can read what the other
    sends, whatever they send and however long they go on, until they exchange keys
    again.  [drawn] are the private keys drawn afterwards; those lead to message
    keys that are not keys of the conversation, and of the chains they start none
    has keys of another. *)
Theorem C45_dead :
  forall hmac sha256 x25519 base seal unseal xs sk E a b t0 t1,
  setting hmac sha256 x25519 base seal unseal xs sk E a b t0 t1 -> key_law seal unseal ->
  forall done D, reach hmac sha256 x25519 base seal unseal xs a b t0 t1 done D -> N.of_nat (length done) < 2 ^ 20 - 2 ->
  (length done + 5 <= E)%nat ->
  let w := fst (run hmac sha256 x25519 base seal unseal xs (start a b) done) in
  forall who, ratchet_flag (w_r w who) = true ->
  let c := i_cur (w_i w who) in
  forall hn mn msg now d1 ct order now' d2 m, (t0 <= now <= t1)%Z -> (t0 <= now' <= t1)%Z ->
  transmit hmac sha256 x25519 base seal (xs (S c)) hn mn msg now (D who) d1 (Some ct) false ->
  receive hmac sha256 x25519 unseal order ct now' (D (negb who)) d2 m true ->
  fair hmac sha256 x25519 base seal unseal xs sk E (start a b) (done ++ [Send who hn mn msg; Recv (negb who) order now' ct]) ->
  forall drawn : bytes -> Prop,
  let km := km hmac sha256 x25519 base xs sk in
  let next k s := sha256 (root_update_label ++ hmac k root_label ++ s) in
  let key k i := mkey_at hmac (hmac k chain_label) i in
  (forall p s e i j, drawn p -> x25519 p (base (xs c)) = Some s -> (1 <= e <= S c)%nat -> key (km e) i <> key (next (km c) s) j) ->
  (forall p q s s' s'' i j, drawn p -> drawn q ->
     x25519 p (base (xs c)) = Some s -> x25519 p (base q) = Some s' -> x25519 q (base (xs (S c))) = Some s'' ->
     key (next (next (km c) s) s') i <> key (next (km (S c)) s'') j) ->
  forall p1 p2 ra rb, load p1 d1 = Some ra -> load p2 d2 = Some rb ->
  forall acts, let s := mkAfter (fun x => if x then ra else rb) (fun _ => []) in
  acts_ok hmac sha256 x25519 base seal unseal drawn s acts ->
  Forall (fun x => match fst x with Hear _ _ _ _ => snd x = None | _ => True end)
    (do_acts hmac sha256 x25519 base seal unseal s acts).
Proof.
  intros hmac sha256 x25519 base seal unseal xs sk E a b t0 t1 ST KL done D R F HE w who FL c hn mn msg now d1 ct order now' d2 m
    TN TN' T1 T2 FA drawn km next key KD1 KD2 p1 p2 ra rb LA LB acts s OK.
  assert (F' : few (length done)) by (unfold few; lia).
  pose proof (setting_disk _ _ _ _ _ _ _ _ _ _ _ _ _ ST done D R F' who) as OA.
  change (memory hmac sha256 x25519 base seal unseal xs a b done) with w in OA.
  inversion T1 as [|p r r' ct0 d0 b0 LD EN SV]; subst. apply saving_reads in SV.
  assert (LA' : load p1 (D who) = Some ra) by (unfold load in *; now rewrite <- SV).
  assert (SA : same ra (w_r w who)).
  { eapply on_disk_load in OA as (y & Y1 & Y2 & _); eauto; try apply ST. rewrite LA' in Y1. now injection Y1 as <-. }
  (* had the client not died *)
  destruct (setting_inv _ _ _ _ _ _ _ _ _ _ _ _ _ ST done) as (I & C & LG); [now apply fair_app in FA|lia|lia|].
  change (memory hmac sha256 x25519 base seal unseal xs a b done) with w in I, C, LG.
  pose proof (iv_party _ _ _ _ _ _ _ _ I who) as P. pose proof (pi_flag _ _ _ _ _ _ _ _ _ _ P) as HT. rewrite FL in HT. symmetry in HT.
  assert (IS : ideal_send (w_i w who) = (mkI (S c) false 1 (i_sent (w_i w who)) (i_high (w_i w who)) (i_got (w_i w who)), (S c, 0, i_sent (w_i w who))))
    by (unfold ideal_send; now rewrite HT).
  assert (R1 : reach hmac sha256 x25519 base seal unseal xs a b t0 t1 (done ++ [Send who hn mn msg])
                 (set D who (mset (D who) ratchet_file (image now r')))).
  { apply (Re_send _ _ _ _ _ _ _ _ _ _ _ done D who (xs (S c)) hn mn msg now _ (Some ct) true R TN).
    - eapply Tx_sent; [exact LD|exact EN|constructor].
    - change (memory hmac sha256 x25519 base seal unseal xs a b done) with w. now rewrite IS. }
  assert (R2 := Re_recv hmac sha256 x25519 base seal unseal xs a b t0 t1 _ _ (negb who) order ct now' d2 m true R1 TN').
  rewrite set_ne in R2. specialize (R2 T2). cbv iota in R2. rewrite <- app_assoc in R2. cbn [app] in R2.
  set (evs := done ++ [Send who hn mn msg; Recv (negb who) order now' ct]) in *.
  assert (LE : length evs = (length done + 2)%nat) by (unfold evs; rewrite app_length; reflexivity).
  assert (F2 : few (length evs)) by (unfold few; lia).
  pose proof (setting_disk _ _ _ _ _ _ _ _ _ _ _ _ _ ST evs _ R2 F2 (negb who)) as OB. rewrite set_eq in OB.
  set (w2 := memory hmac sha256 x25519 base seal unseal xs a b evs) in *.
  assert (SB : same rb (w_r w2 (negb who))).
  { eapply on_disk_load in OB as (y & Y1 & Y2 & _); eauto; try apply ST. rewrite LB in Y1. now injection Y1 as <-. }
  destruct (setting_inv _ _ _ _ _ _ _ _ _ _ _ _ _ ST evs FA) as (I2 & _ & _); [lia|lia|]. fold w2 in I2.
  pose proof (iv_party _ _ _ _ _ _ _ _ I2 (negb who)) as P2.
  assert (Q : i_turn (w_i w2 (negb who)) = true /\ i_cur (w_i w2 (negb who)) = S c).
  { destruct (setting_inv _ _ _ _ _ _ _ _ _ _ _ _ _ ST (done ++ [Send who hn mn msg])) as (I1 & C1 & LG1).
    { unfold evs in FA. change ([Send who hn mn msg; Recv (negb who) order now' ct]) with ([Send who hn mn msg] ++ [Recv (negb who) order now' ct]) in FA.
      rewrite app_assoc in FA. now apply fair_app in FA. }
    { rewrite app_length. cbn [length]. lia. } { rewrite app_length. cbn [length]. lia. }
    rewrite app_length in C1, LG1. cbn [length] in C1, LG1.
    set (w1 := memory hmac sha256 x25519 base seal unseal xs a b (done ++ [Send who hn mn msg])) in *.
    assert (EA : exists r0, encrypt hmac sha256 x25519 base seal (w_r w who) (xs (S c)) hn mn msg = (r0, Some ct)).
    { assert (SR : same r (w_r w who)).
      { eapply on_disk_load in OA as (y & Y1 & Y2 & _); eauto; try apply ST. rewrite LD in Y1. now injection Y1 as <-. }
      destruct (same_op hmac sha256 x25519 base seal unseal _ _ (Enc (xs (S c)) hn mn msg) SR) as [_ Q2].
      cbn [apply_op] in Q2. rewrite EN in Q2. destruct (encrypt hmac sha256 x25519 base seal (w_r w who) (xs (S c)) hn mn msg) as [y [z|]];
        cbn [snd] in Q2; [|discriminate]. exists y. congruence. }
    destruct EA as [r0 EA].
    assert (W1 : w1 = mkWorld (set (w_r w) who r0) (set (w_i w) who (fst (ideal_send (w_i w who)))) (mkEntry who (S c, 0, i_sent (w_i w who)) msg ct :: w_log w)).
    { unfold w1, memory. rewrite run_app, run_one. change (fst (run hmac sha256 x25519 base seal unseal xs (start_world a b) done)) with w.
      cbn [step]. rewrite IS. cbn [fst snd]. now rewrite EA. }
    assert (FR : (forall l, Permutation l (order l)) /\ unforged hmac sha256 x25519 base unseal xs sk E (w_log w1) ct).
    { unfold evs in FA. change ([Send who hn mn msg; Recv (negb who) order now' ct]) with ([Send who hn mn msg] ++ [Recv (negb who) order now' ct]) in FA.
      rewrite app_assoc in FA. apply fair_app in FA as [_ FA]. cbn [fair] in FA. destruct FA as [FA _]. exact FA. }
    destruct (st_box _ _ _ _ _ _ _ _ _ _ _ _ _ ST) as [B1 B2]. destruct (st_keys _ _ _ _ _ _ _ _ _ _ _ _ _ ST) as (J1 & J2 & J3).
    pose proof (st_base _ _ _ _ _ _ _ _ _ _ _ _ _ ST) as BL. destruct FR as [FR1 FR2].
    destruct (recv_ok hmac sha256 x25519 base seal unseal xs sk E B1 B2 BL J1 J2 J3 w1 (negb who) order now' ct I1) as (_ & G & _); auto.
    { lia. } { specialize (C1 (negb who)). lia. } { specialize (C1 (negb (negb who))). lia. }
    assert (RR : real_result (snd (step hmac sha256 x25519 base seal unseal xs w1 (Recv (negb who) order now' ct))) <> None).
    { cbn [step]. assert (O1 : on_disk t0 t1 (length (done ++ [Send who hn mn msg])) (w_r w1 (negb who)) (D (negb who))).
      { rewrite <- (set_ne D who (mset (D who) ratchet_file (image now r'))). refine (setting_disk _ _ _ _ _ _ _ _ _ _ _ _ _ ST _ _ R1 _ _).
        rewrite app_length. cbn [length]. unfold few. lia. }
      assert (exists p r r' m', load p (D (negb who)) = Some r /\
        decrypt hmac sha256 x25519 unseal (order (mkeys (saved r))) now' r ct = (r', Got m')) as (p3 & r3 & r4 & m' & L3 & D3)
        by (inversion T2; subst; eauto 10).
      assert (SR : same r3 (w_r w1 (negb who))).
      { eapply on_disk_load in O1 as (y & Y1 & Y2 & _); eauto; try apply ST.
        - rewrite L3 in Y1. now injection Y1 as <-.
        - rewrite app_length. cbn [length]. unfold few. lia. }
      assert (KE : mkeys (saved r3) = mkeys (saved (w_r w1 (negb who)))) by (apply same_saved_keys; unfold same in SR; tauto).
      destruct (same_op hmac sha256 x25519 base seal unseal _ _ (Dec (order (mkeys (saved r3))) now' ct) SR) as [_ Q2].
      cbn [apply_op] in Q2. rewrite D3, KE in Q2. cbn [snd] in Q2.
      destruct (decrypt hmac sha256 x25519 unseal (order (mkeys (saved (w_r w1 (negb who))))) now' (w_r w1 (negb who)) ct) as [y o].
      cbn [snd] in Q2. subst o. destruct (match find_sent _ _ _ with None => _ | Some _ => _ end). cbn [snd real_result]. discriminate. }
    rewrite G in RR. cbn [step] in RR.
    assert (W2 : w2 = fst (step hmac sha256 x25519 base seal unseal xs w1 (Recv (negb who) order now' ct))).
    { unfold w2, evs. change ([Send who hn mn msg; Recv (negb who) order now' ct]) with ([Send who hn mn msg] ++ [Recv (negb who) order now' ct]).
      rewrite app_assoc. unfold memory. now rewrite run_app, run_one. }
    rewrite W2. cbn [step].
    destruct (decrypt hmac sha256 x25519 unseal (order (mkeys (saved (w_r w1 (negb who))))) now' (w_r w1 (negb who)) ct) as [y o].
    assert (FS : find_sent (w_log w1) (negb (negb who)) ct = Some (mkEntry who (S c, 0, i_sent (w_i w who)) msg ct)).
    { rewrite W1. unfold find_sent. cbn [w_log find en_from en_ct]. rewrite negb_involutive, Bool.eqb_reflx, eqb_refl. reflexivity. }
    rewrite FS in RR |- *. cbn [en_label en_plain] in RR |- *.
    assert (WI : w_i w1 (negb who) = w_i w (negb who)) by (rewrite W1; cbn [w_i]; apply set_ne).
    rewrite WI in RR |- *.
    pose proof (iv_party _ _ _ _ _ _ _ _ I (negb who)) as PN. destruct (two_who _ _ _ _ _ _ _ w who I) as (TW & _). destruct (TW HT) as [TN1 TN2].
    unfold ideal_recv in RR |- *. unfold recv_epoch in RR |- *. rewrite TN1, TN2 in RR |- *. fold c in RR |- *.
    destruct (mem (S c, 0) (i_got (w_i w (negb who)))) eqn:MM; [cbn [snd ideal_result] in RR; congruence|].
    destruct (Nat.ltb_spec (S c) (pred c)); [lia|]. destruct (Nat.eqb_spec (S c) (pred c)); [lia|].
    cbn [orb andb] in RR |- *. destruct ((80 <? _) || (80 <? 0)); [cbn [snd ideal_result] in RR; congruence|].
    cbn [fst w_i]. rewrite set_eq. auto. }
  destruct Q as [Q1 Q2].
  destruct (pi_turn_true _ _ _ _ _ _ _ _ _ _ P HT) as (A1 & A2 & A3). destruct (pi_turn_true _ _ _ _ _ _ _ _ _ _ P2 Q1) as (A4 & A5 & A6).
  fold c in A1, A2, A3. rewrite Q2 in A4, A5, A6.
  pose proof (pi_root _ _ _ _ _ _ _ _ _ _ P) as A7. fold c in A7. pose proof (pi_root _ _ _ _ _ _ _ _ _ _ P2) as A8. rewrite Q2 in A8.
  pose proof (pi_rheader _ _ _ _ _ _ _ _ _ _ P) as A9. unfold recv_epoch in A9. rewrite HT in A9. fold c in A9.
  pose proof (pi_rheader _ _ _ _ _ _ _ _ _ _ P2) as A10. unfold recv_epoch in A10. rewrite Q1, Q2 in A10.
  pose proof (pi_rchain _ _ _ _ _ _ _ _ _ _ P2) as A11. unfold recv_epoch in A11. rewrite Q1, Q2 in A11. specialize (A11 ltac:(lia)).
  pose proof (pi_cur _ _ _ _ _ _ _ _ _ _ P) as A12. fold c in A12. pose proof (C who) as A13. fold c in A13.
  pose proof (pi_flag _ _ _ _ _ _ _ _ _ _ P2) as A14. rewrite Q1 in A14.
  pose proof SA as SA'. pose proof SB as SB'.
  destruct SA' as (X1 & X2 & X3 & X4 & X5 & X6 & X7 & X8 & X9 & X10 & X11 & X12 & X13 & X14 & _).
  destruct SB' as (Y1 & Y2 & Y3 & Y4 & Y5 & Y6 & Y7 & Y8 & Y9 & Y10 & Y11 & Y12 & Y13 & Y14 & _).
  destruct (st_box _ _ _ _ _ _ _ _ _ _ _ _ _ ST) as [B1 B2]. destruct (st_keys _ _ _ _ _ _ _ _ _ _ _ _ _ ST) as (J1 & J2 & J3).
  assert (Key : forall e i, mk hmac sha256 x25519 base xs sk e i = key (km e) (N.to_nat i)).
  { intros e i. unfold key. change (hmac (km e) chain_label) with (ck hmac sha256 x25519 base xs sk e 0). rewrite mk_mkey. f_equal. lia. }
  assert (ChA : forall p c0, chain_a hmac sha256 x25519 ra drawn p c0 -> exists s0, drawn p /\ x25519 p (base (xs c)) = Some s0 /\ c0 = hmac (next (km c) s0) chain_label).
  { intros p0 c0 (G1 & s0 & G2 & G3). exists s0. rewrite X9, A1 in G2. split; [exact G1|]. split; [exact G2|]. rewrite G3. unfold km_of, next.
    now rewrite X1, A7. }
  assert (NSV : forall e, (1 <= e <= S (S c))%nat -> hk hmac sha256 x25519 base xs sk e = hk hmac sha256 x25519 base xs sk (S (S c)) -> e = S (S c)).
  { intros e He Q0. apply J2 in Q0; auto; lia. }
  apply (dead hmac sha256 x25519 base seal unseal B1 B2 KL (st_base _ _ _ _ _ _ _ _ _ _ _ _ _ ST) ra rb drawn).
  - rewrite X4, A2. apply J3. lia.
  - rewrite X3, X5, A9, A3. intros Q0. apply NSV in Q0; lia.
  - intros p0 c0 i j G. apply ChA in G as (s0 & G1 & G2 & ->). rewrite Y7, A11, mk_mkey, Key. unfold key. rewrite Nat2N.id.
    apply (KD1 p0 s0 (S c) _ j G1 G2). lia.
  - intros p0 q c0 c' i j G1 (G2 & s2 & G3 & ->) (s0 & s1 & G4 & G5 & ->). unfold km_of. rewrite X9, A1 in G4. rewrite Y9, A4 in G3.
    rewrite X1, A7, Y1, A8. exact (KD2 p0 q s0 s1 s2 i j G1 G2 G4 G5 G3).
  - apply start_after.
    + rewrite X13. exact FL.
    + rewrite Y13. exact A14.
    + now rewrite Y3, X4, A2, A10.
    + now rewrite Y4, X5, A3, A5.
    + rewrite (same_saved_keys _ _ X14), X5, A3. intros G. destruct (pi_keys _ _ _ _ _ _ _ _ _ _ P _ G) as (e & G1 & _ & G2).
      unfold recv_epoch in G1. rewrite HT in G1. fold c in G1. symmetry in G2. apply NSV in G2; lia.
    + intros p0 c0 j G hk0 n k L. apply ChA in G as (s0 & G1 & G2 & ->). destruct (same_lookup _ _ _ _ _ Y14 L) as (k' & L' & <-).
      assert (GK : In hk0 (mkeys (saved (w_r w2 (negb who))))).
      { unfold lookup in L'. destruct (mget (saved (w_r w2 (negb who))) hk0) eqn:M; [now apply mget_Some_keys in M|discriminate]. }
      destruct (pi_keys _ _ _ _ _ _ _ _ _ _ P2 _ GK) as (e & G3 & G4 & ->).
      pose proof (pi_saved _ _ _ _ _ _ _ _ _ _ P2 e n G3 G4) as SV2. rewrite L' in SV2. cbn [option_map] in SV2.
      destruct (_ && _) in SV2; [|discriminate]. injection SV2 as ->. rewrite Key. unfold recv_epoch in G3. rewrite Q1, Q2 in G3.
      exact (KD1 p0 s0 e _ j G1 G2 G3).
  - exact OK.
Qed.
Print Assumptions C45_dead.
