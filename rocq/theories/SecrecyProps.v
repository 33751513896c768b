(** C76: who can read the messages of a conversation with a stolen ratchet.

    The keys of a ratchet are the values of terms ([C76_state]), the ciphertexts too
    ([C76_wire]); what can be derived from the terms is compared with a specification
    that speaks of epochs and numbers only ([C76_readable]). *)
From Verif Require Import Base BlobModel BlobProps SessionProps RatchetModel RatchetProofs RatchetConvModel RatchetConvProofs RatchetProps
  RatchetCases SecrecyModel SecrecyProofs.
Local Open Scope N_scope.

(** ** Specification *)

(** Messages of one direction between two changes of direction form an epoch; the even
    epochs are alice's ([who = true]).  The newest epochs of either side that [who] knows: *)
Definition mine (p : iparty) : nat := if i_turn p then pred (i_cur p) else i_cur p.
Definition theirs (p : iparty) : nat := if i_turn p then i_cur p else pred (i_cur p).
Definition sent_in (log : list entry) (e : nat) : N := N.of_nat (length (filter (fun en => Nat.eqb (en_epoch en) e) log)).

(** Message [i] of epoch [e] was sent to [who], who has not read it, but has read a later
    one of that epoch or one of a later epoch. *)
Definition skipped (w : world) (who : bool) (e : nat) (i : N) : Prop :=
  let p := w_i w who in
  (1 <= e <= theirs p)%nat /\ Nat.even e = negb who /\
  i < (if (e =? theirs p)%nat then i_high p else sent_in (w_log w) e) /\ ~ In (e, i) (i_got p).

(** Whoever has the ratchet of [who] as it is in [w] can read message [i] of epoch [e]:
    the first epoch, always; if [who] sent the newest epoch, the next one, and epoch 2 if
    that is the newest; what [who] would send or read next in the newest epoch of either
    side; and skipped messages. *)
Definition readable (w : world) (who : bool) (e : nat) (i : N) : Prop :=
  let p := w_i w who in
  e = 1%nat \/
  (i_turn p = false /\ (e = S (i_cur p) \/ (i_cur p = 2%nat /\ e = 2%nat))) \/
  (e = mine p /\ i_sent p <= i) \/ (e = theirs p /\ i_high p <= i) \/ skipped w who e i.

(** ** Setting *)

(** Two ratchets after the key exchange, and any sequence of sends and of deliveries of
    arbitrary bytes, as in C15. *)
Definition conversation hmac sha256 x25519 base seal unseal scrypt encap decap xs sk E a b evs : Prop :=
  box_law seal unseal /\ (forall x, length (base x) = 32%nat) /\ keys_law hmac sha256 x25519 base xs sk E /\
  established hmac sha256 base seal unseal scrypt encap decap xs sk a b /\
  fair hmac sha256 x25519 base seal unseal xs sk E (start a b) evs /\
  (length evs + 2 <= E)%nat /\ N.of_nat (length evs) < 2 ^ 32 - 1.

(** The thief has the ratchet of [who] as it is in [w], and all ciphertexts [sent]. *)
Definition stolen hmac sha256 x25519 base xs sk (w : world) (who : bool) (sent : list sent_as) : term -> Prop :=
  sees (held (w_i w who) (missing (w_log w) who (w_i w who)) (headers hmac sha256 x25519 base xs sk (w_r w who) (w_i w who)))
       (wire sent).
Definition labels (log : list entry) (sent : list sent_as) : Prop := Forall2 (fun en s => en_label en = fst (fst s)) log sent.

Lemma established_halves hmac sha256 base seal unseal scrypt encap decap xs sk a b :
  (forall k n m, unseal k n (seal k n m) = Some m) ->
  established hmac sha256 base seal unseal scrypt encap decap xs sk a b ->
  exists half : bool -> bytes, a = start_alice hmac base xs sk (Some (half true)) (Some (half false)) /\
    b = start_bob hmac xs sk (Some (half true)) (Some (half false)) /\ sk = sha256 (half true ++ half false).
Proof.
  intros B (keypair & pk_a & sk_a & pk_b & sk_b & priv_a & coins_a & coins_b & salt_a & salt_b & nonce_a & nonce_b & a1 & b1 &
    kx_a & kx_b & D & Ka & Kb & L1 & L2 & L3 & L4 & F1 & F2 & C1 & C2 & SK).
  pose proof (D coins_a pk_b sk_b Kb) as D1. pose proof (D coins_b pk_a sk_a Ka) as D2.
  unfold fill_kx in *. destruct (encap coins_a pk_b) as [ca ka]. destruct (encap coins_b pk_a) as [cb kb].
  cbn [fst snd new_ratchet kx_private] in *. injection F1 as <- <-. injection F2 as <- <-.
  unfold complete_kx in *. cbn [kx_cipher kx_public my_half kx_private] in *. rewrite D2 in C1. rewrite D1 in C2.
  rewrite accept_share in C1 by auto. rewrite accept_share in C2 by auto.
  destruct (negb (valid_point (base (xs 1%nat)))); [discriminate|]. destruct (negb (valid_point (base priv_a))); [discriminate|].
  rewrite <- SK in *. injection C1 as <-. injection C2 as <-. exists (fun alice : bool => if alice then ka else kb). split; [|split]; auto.
Qed.

Lemma conversation_inv hmac sha256 x25519 base seal unseal scrypt encap decap xs sk E a b evs :
  conversation hmac sha256 x25519 base seal unseal scrypt encap decap xs sk E a b evs ->
  exists half : bool -> bytes, sk = sha256 (half true ++ half false) /\
  forall evs1 evs2, evs = evs1 ++ evs2 ->
    let w := fst (run hmac sha256 x25519 base seal unseal xs (start a b) evs1) in
    inv hmac sha256 x25519 base seal xs sk w /\
    forall who, extra hmac sha256 x25519 base xs sk half who (w_r w who) (w_i w who).
Proof.
  intros ([B1 B2] & BL & (K1 & K2 & K3) & ES & F & HE & HL).
  destruct (established_halves _ _ _ _ _ _ _ _ _ _ _ _ B1 ES) as (half & -> & -> & SK). exists half. split; [exact SK|].
  intros evs1 evs2 ->. rewrite app_length in *. apply fair_app in F as [F _]. cbv zeta.
  assert (I0 : inv hmac sha256 x25519 base seal xs sk
    (start (start_alice hmac base xs sk (Some (half true)) (Some (half false))) (start_bob hmac xs sk (Some (half true)) (Some (half false))))).
  { eapply (start_inv hmac sha256 x25519 base seal unseal xs sk E); eassumption. }
  assert (H1 : N.of_nat (length (w_log (start (start_alice hmac base xs sk (Some (half true)) (Some (half false)))
      (start_bob hmac xs sk (Some (half true)) (Some (half false))))) + length evs1) < 2 ^ 32 - 1) by (cbn [start w_log length]; lia).
  assert (H2 : forall who, (i_cur (w_i (start (start_alice hmac base xs sk (Some (half true)) (Some (half false)))
      (start_bob hmac xs sk (Some (half true)) (Some (half false)))) who) + length evs1 + 1 <= E)%nat).
  { intros [|]; cbn [start w_i i_alice i_bob i_cur]; lia. }
  split.
  - eapply run_ok; eassumption.
  - eapply extra_run; try eassumption. eapply (start_extra hmac sha256 x25519 base seal unseal xs sk E); eassumption.
Qed.

(** ** The keys of a ratchet, and the ciphertexts, are the values of the terms *)

(** At every moment of the conversation, what the ratchet of either party stores is
    exactly the values of the terms it is said to hold. *)
Theorem C76_state hmac sha256 x25519 base seal unseal scrypt encap decap xs sk E a b evs :
  conversation hmac sha256 x25519 base seal unseal scrypt encap decap xs sk E a b evs ->
  exists half : bool -> bytes, forall evs1 evs2 who msg x, evs = evs1 ++ evs2 ->
    let w := fst (run hmac sha256 x25519 base seal unseal xs (start a b) evs1) in
    stored (w_r w who) x <->
    exists t, held (w_i w who) (missing (w_log w) who (w_i w who)) (headers hmac sha256 x25519 base xs sk (w_r w who) (w_i w who)) t /\
              value hmac sha256 x25519 base seal xs half msg t = x.
Proof.
  intros C. apply conversation_inv in C as (half & SK & C). exists half. intros evs1 evs2 who msg x EQ w.
  destruct (C evs1 evs2 EQ) as [I X]. fold w in I, X. pose proof (iv_party _ _ _ _ _ _ _ _ I who) as P. split.
  - intros S. eapply stored_held; eauto.
  - intros (t & H & <-). eapply held_stored; eauto.
Qed.
Print Assumptions C76_state.

(** The ciphertexts of a conversation are nonces and the values of the boxes. *)
Theorem C76_wire hmac sha256 x25519 base seal unseal scrypt encap decap xs sk E a b evs :
  conversation hmac sha256 x25519 base seal unseal scrypt encap decap xs sk E a b evs ->
  let w := fst (run hmac sha256 x25519 base seal unseal xs (start a b) evs) in
  exists half msg sent,
    Forall2 (travels hmac sha256 x25519 base seal xs half msg) (w_log w) sent /\ labels (w_log w) sent /\
    forall en, In en (w_log w) -> msg (en_epoch en) (en_index en) = en_plain en.
Proof.
  intros C w. apply conversation_inv in C as (half & SK & C). destruct (C evs [] (eq_sym (app_nil_r _))) as [I _]. fold w in I.
  pose proof (iv_log _ _ _ _ _ _ _ _ I) as L.
  set (msg := fun e i => match find (fun en => Nat.eqb (en_epoch en) e && (en_index en =? i)) (w_log w) with Some en => en_plain en | None => [] end).
  assert (M : forall en, In en (w_log w) -> msg (en_epoch en) (en_index en) = en_plain en).
  { intros en Hin. unfold msg. destruct (find _ _) as [en'|] eqn:FD.
    - apply find_some in FD as [F1 F2]. apply andb_prop in F2 as [F2 F3]. apply Nat.eqb_eq in F2. apply N.eqb_eq in F3.
      now rewrite (li_label _ _ _ _ _ _ _ _ L en' en F1 Hin F2 F3).
    - exfalso. pose proof (find_none _ _ FD en Hin) as Q. cbn beta in Q. now rewrite Nat.eqb_refl, N.eqb_refl in Q. }
  destruct (wire_values hmac sha256 x25519 base seal xs sk half msg SK (w_log w) L M) as [sent F].
  exists half, msg, sent. split; [exact F|]. split; [|exact M]. unfold labels. clear - F. induction F as [|en [[[[e i] p] hn] mn] l s T F IH]; constructor; auto.
  cbn [fst]. apply T.
Qed.
Print Assumptions C76_wire.

(** ** What a thief can read *)

(** The ratchet is stolen after [evs1]; the thief also has every ciphertext of the whole
    conversation, from before and from after the theft.  The plaintext of a message can be
    derived exactly if it is [readable]. *)
Theorem C76_readable hmac sha256 x25519 base seal unseal scrypt encap decap xs sk E a b evs1 evs2 who sent en :
  conversation hmac sha256 x25519 base seal unseal scrypt encap decap xs sk E a b (evs1 ++ evs2) ->
  let run := run hmac sha256 x25519 base seal unseal xs (start a b) in
  let w := fst (run evs1) in let w' := fst (run (evs1 ++ evs2)) in
  labels (w_log w') sent -> In en (w_log w') ->
  (derive (stolen hmac sha256 x25519 base xs sk w who sent) (Msg (en_epoch en) (en_index en)) <->
   readable w who (en_epoch en) (en_index en)).
Proof.
  intros C run0 w w' LB Hin. apply conversation_inv in C as (half & SK & C).
  destruct (C evs1 evs2 eq_refl) as [I _]. destruct (C (evs1 ++ evs2) [] (eq_sym (app_nil_r _))) as [I' _].
  fold run0 in I, I'. fold w in I. fold w' in I'.
  pose proof (iv_party _ _ _ _ _ _ _ _ I who) as P. pose proof (pi_cur _ _ _ _ _ _ _ _ _ _ P) as CU.
  assert (POS : forall en, In en (w_log w') -> (1 <= en_epoch en)%nat).
  { intros en0 H. pose proof (li_genuine _ _ _ _ _ _ _ _ (iv_log _ _ _ _ _ _ _ _ I') en0 H) as G. unfold genuine in G.
    unfold en_epoch. destruct (en_label en0) as [[e i] p]. destruct G as (hn & mn & _ & _ & _ & G & _). exact G. }
  assert (F1 : forall e i p hn mn, In (e, i, p, hn, mn) sent -> exists en, In en (w_log w') /\ en_label en = (e, i, p)).
  { clear - LB. unfold labels in LB. induction LB as [|en0 s l s' H F IH]; intros e i p hn mn [].
    - subst s. exists en0. cbn in *. auto.
    - destruct (IH _ _ _ _ _ H0) as (en & A & B). exists en. cbn; auto. }
  assert (F2 : exists p hn mn, In (en_epoch en, en_index en, p, hn, mn) sent).
  { clear - LB Hin. unfold labels in LB. induction LB as [|en0 [[[[e i] p] hn] mn] l s' H F IH]; [destruct Hin|].
    destruct Hin as [->|Hin].
    - exists p, hn, mn. left. unfold en_epoch, en_index. rewrite H. reflexivity.
    - destruct (IH Hin) as (p' & hn' & mn' & A). exists p', hn', mn'. cbn; auto. }
  change (readable w who (en_epoch en) (en_index en)) with
    (opened (w_i w who) (missing (w_log w) who (w_i w who)) (en_epoch en) (en_index en)).
  split.
  - intros D. eapply upper; [..|exact D].
    + exact CU.
    + intros e i (M & _). lia.
    + intros e i q hn mn H. apply F1 in H as (en0 & A & B). apply POS in A. unfold en_epoch in A. rewrite B in A. exact A.
  - intros O. destruct F2 as (p & hn & mn & H). eapply lower; [exact CU| | | | |apply POS; exact Hin|exact O].
    + intros e i (M & _). lia.
    + intros t Ht. left. exact Ht.
    + right. exists (en_epoch en), (en_index en), p, hn, mn. eauto.
    + right. exists (en_epoch en), (en_index en), p, hn, mn. eauto.
Qed.
Print Assumptions C76_readable.

(** Without a theft: nothing can be read from the ciphertexts, even with all header keys. *)
Theorem C76_server hmac sha256 x25519 base seal unseal scrypt encap decap xs sk E a b evs sent e i :
  conversation hmac sha256 x25519 base seal unseal scrypt encap decap xs sk E a b evs ->
  labels (w_log (fst (run hmac sha256 x25519 base seal unseal xs (start a b) evs))) sent ->
  ~ derive (sees (fun t => exists e, t = thk e) (wire sent)) (Msg e i).
Proof.
  intros C LB. apply conversation_inv in C as (half & SK & C).
  destruct (C evs [] (eq_sym (app_nil_r _))) as [I _]. cbv zeta in I. apply no_theft.
  intros e0 i0 p hn mn H. unfold labels in LB.
  assert (exists en, In en (w_log (fst (run hmac sha256 x25519 base seal unseal xs (start a b) evs))) /\ en_label en = (e0, i0, p)) as (en & A & B).
  { clear - LB H. induction LB as [|en0 s l s' Q F IH]; [destruct H|]. destruct H as [->|H].
    - exists en0. cbn in *. auto.
    - destruct (IH H) as (en & A & B). exists en. cbn; auto. }
  pose proof (li_genuine _ _ _ _ _ _ _ _ (iv_log _ _ _ _ _ _ _ _ I) en A) as G. unfold genuine in G.
  rewrite B in G. destruct G as (hn' & mn' & _ & _ & _ & G & _). exact G.
Qed.
Print Assumptions C76_server.

Lemma pred_sender e : (1 <= e)%nat -> sender (pred e) = negb (sender e).
Proof. destruct e; [intros H; inversion H|]. intros _. unfold sender. rewrite Nat.even_succ, <- Nat.negb_even. now rewrite negb_involutive. Qed.

(** Forward secrecy: messages that [who] has sent or read before the theft stay secret,
    except those of the first epoch, and those of the second epoch if [who] is its sender
    and has read nothing since. *)
Theorem C76_forward hmac sha256 x25519 base seal unseal scrypt encap decap xs sk E a b evs1 evs2 who sent en :
  conversation hmac sha256 x25519 base seal unseal scrypt encap decap xs sk E a b (evs1 ++ evs2) ->
  let run := run hmac sha256 x25519 base seal unseal xs (start a b) in
  let w := fst (run evs1) in let w' := fst (run (evs1 ++ evs2)) in
  labels (w_log w') sent -> In en (w_log w) ->
  en_from en = who \/ In (en_epoch en, en_index en) (i_got (w_i w who)) ->
  en_epoch en <> 1%nat -> ~ (en_epoch en = 2 /\ i_cur (w_i w who) = 2 /\ i_turn (w_i w who) = false)%nat ->
  ~ derive (stolen hmac sha256 x25519 base xs sk w who sent) (Msg (en_epoch en) (en_index en)).
Proof.
  intros C run0 w w' LB Hin WHO N1 N2 D.
  assert (Hin' : In en (w_log w')).
  { unfold w', run0. rewrite run_app. cbv zeta. cbn [fst]. now apply run_keeps. }
  eapply C76_readable in D; [|exact C|exact LB|exact Hin']. fold run0 in D. fold w in D.
  apply conversation_inv in C as (half & SK & C). destruct (C evs1 evs2 eq_refl) as [I _]. fold run0 in I. fold w in I.
  pose proof (iv_party _ _ _ _ _ _ _ _ I who) as P. pose proof (pi_cur _ _ _ _ _ _ _ _ _ _ P) as CU.
  pose proof (pi_parity _ _ _ _ _ _ _ _ _ _ P) as PA. pose proof (pi_sent _ _ _ _ _ _ _ _ _ _ P) as PS.
  pose proof (pi_got _ _ _ _ _ _ _ _ _ _ P (en_epoch en) (en_index en)) as PG.
  pose proof (li_genuine _ _ _ _ _ _ _ _ (iv_log _ _ _ _ _ _ _ _ I) en Hin) as G. unfold genuine in G.
  assert ((1 <= en_epoch en)%nat /\ en_from en = sender (en_epoch en) /\ en_index en < cnt (w_log w) (en_epoch en)) as (G1 & G2 & G3).
  { unfold en_epoch, en_index. destruct (en_label en) as [[e0 i0] p0]. destruct G as (hn & mn & _ & _ & _ & G1 & G2 & G3 & _). auto. }
  clear G. set (e := en_epoch en) in *. set (i := en_index en) in *. set (p := w_i w who) in *.
  assert (M : mine p = O \/ sender (mine p) = who).
  { unfold mine. destruct (i_turn p); [|now right]. right. rewrite pred_sender, PA by exact CU. apply negb_involutive. }
  assert (T : theirs p = O \/ sender (theirs p) = negb who).
  { unfold theirs. destruct (i_turn p); [now right|]. right. rewrite pred_sender, PA by exact CU. reflexivity. }
  assert (NE : forall x, x <> negb x) by (intros []; discriminate).
  destruct WHO as [O|O].
  - rewrite G2 in O. destruct D as [D|[(TU & [D|[D1 D2]])|[[D1 D2]|[[D1 D2]|(_ & D & _)]]]].
    + auto.
    + fold p in TU, D. rewrite TU in PA. rewrite D, sender_S, PA in O. now apply (NE who).
    + apply N2. auto.
    + fold p in D1, D2. rewrite PS in D2. unfold mine in D1. rewrite <- D1 in D2. clear - G3 D2. Lia.lia.
    + fold p in D1. rewrite D1 in O. destruct T as [T|T]; [clear - G1 D1 T; Lia.lia|]. rewrite T in O. now apply (NE who).
    + change (sender e = negb who) in D. rewrite O in D. now apply (NE who).
  - destruct (PG O) as (S1 & S2 & S3). destruct D as [D|[(TU & [D|[D1 D2]])|[[D1 D2]|[[D1 D2]|(_ & _ & _ & D)]]]].
    + auto.
    + fold p in TU, D. unfold recv_epoch in S2. rewrite TU in S2. clear - S2 D. Lia.lia.
    + apply N2. auto.
    + fold p in D1. rewrite D1 in S1. destruct M as [M|M]; [clear - G1 D1 M; Lia.lia|]. rewrite M in S1. now apply (NE who).
    + fold p in D1, D2. unfold known in S3. change (recv_epoch p) with (theirs p) in S3. rewrite D1, Nat.eqb_refl in S3. clear - S3 D2. Lia.lia.
    + exact (D O).
Qed.
Print Assumptions C76_forward.

(** Healing: nothing that is sent from two changes of direction after the theft on can be
    read, and from one change on if it is [who]'s turn. *)
Theorem C76_healing hmac sha256 x25519 base seal unseal scrypt encap decap xs sk E a b evs1 evs2 who sent en :
  conversation hmac sha256 x25519 base seal unseal scrypt encap decap xs sk E a b (evs1 ++ evs2) ->
  let run := run hmac sha256 x25519 base seal unseal xs (start a b) in
  let w := fst (run evs1) in let w' := fst (run (evs1 ++ evs2)) in
  labels (w_log w') sent -> In en (w_log w') ->
  (i_cur (w_i w who) + (if i_turn (w_i w who) then 1 else 2) <= en_epoch en)%nat ->
  ~ derive (stolen hmac sha256 x25519 base xs sk w who sent) (Msg (en_epoch en) (en_index en)).
Proof.
  intros C run0 w w' LB Hin LE D. eapply C76_readable in D; [|exact C|exact LB|exact Hin]. fold run0 in D. fold w in D.
  apply conversation_inv in C as (half & SK & C). destruct (C evs1 evs2 eq_refl) as [I _]. fold run0 in I. fold w in I.
  pose proof (pi_cur _ _ _ _ _ _ _ _ _ _ (iv_party _ _ _ _ _ _ _ _ I who)) as CU.
  unfold readable, skipped, mine, theirs in D. clear - D LE CU. destruct (i_turn (w_i w who)); intuition (try discriminate; Lia.lia).
Qed.
Print Assumptions C76_healing.

(** The expectation that all messages sent or read before a theft are safe is wrong: all
    messages of the first epoch can be read, whichever ratchet is stolen, however much
    later. *)
Theorem C76_first_refuted hmac sha256 x25519 base seal unseal scrypt encap decap xs sk E a b evs1 evs2 who sent en :
  conversation hmac sha256 x25519 base seal unseal scrypt encap decap xs sk E a b (evs1 ++ evs2) ->
  let run := run hmac sha256 x25519 base seal unseal xs (start a b) in
  let w := fst (run evs1) in let w' := fst (run (evs1 ++ evs2)) in
  labels (w_log w') sent -> In en (w_log w') -> en_epoch en = 1%nat ->
  derive (stolen hmac sha256 x25519 base xs sk w who sent) (Msg (en_epoch en) (en_index en)).
Proof. intros C run0 w w' LB Hin E1. eapply C76_readable; eauto. now left. Qed.
Print Assumptions C76_first_refuted.

(** So can the messages of the second epoch as long as their sender has read none since. *)
Theorem C76_second_refuted hmac sha256 x25519 base seal unseal scrypt encap decap xs sk E a b evs1 evs2 who sent en :
  conversation hmac sha256 x25519 base seal unseal scrypt encap decap xs sk E a b (evs1 ++ evs2) ->
  let run := run hmac sha256 x25519 base seal unseal xs (start a b) in
  let w := fst (run evs1) in let w' := fst (run (evs1 ++ evs2)) in
  labels (w_log w') sent -> In en (w_log w') -> en_epoch en = 2%nat ->
  i_cur (w_i w who) = 2%nat -> i_turn (w_i w who) = false ->
  derive (stolen hmac sha256 x25519 base xs sk w who sent) (Msg (en_epoch en) (en_index en)).
Proof. intros C run0 w w' LB Hin E2 CU TU. eapply C76_readable; eauto. right. left. auto. Qed.
Print Assumptions C76_second_refuted.

(** Until the next change of direction the thief of the ratchet of the sender of the newest
    epoch reads what is sent, and all of the answer to it. *)
Theorem C76_next_refuted hmac sha256 x25519 base seal unseal scrypt encap decap xs sk E a b evs1 evs2 who sent en :
  conversation hmac sha256 x25519 base seal unseal scrypt encap decap xs sk E a b (evs1 ++ evs2) ->
  let run := run hmac sha256 x25519 base seal unseal xs (start a b) in
  let w := fst (run evs1) in let w' := fst (run (evs1 ++ evs2)) in
  labels (w_log w') sent -> In en (w_log w') -> i_turn (w_i w who) = false ->
  (en_epoch en = i_cur (w_i w who) /\ i_sent (w_i w who) <= en_index en) \/ en_epoch en = S (i_cur (w_i w who)) ->
  derive (stolen hmac sha256 x25519 base xs sk w who sent) (Msg (en_epoch en) (en_index en)).
Proof.
  intros C run0 w w' LB Hin TU EP. eapply C76_readable; eauto. fold run0. fold w. unfold readable, mine. rewrite TU. intuition.
Qed.
Print Assumptions C76_next_refuted.

(** ** Cases: the conversation of RatchetCases *)

Example C76_toy : conversation toy_hmac toy_sha toy_x25519 toy_base toy_seal toy_unseal toy_scrypt toy_encap toy_decap toy_xs toy_sk 100 toy_a toy_b toy_evs.
Proof.
  split; [exact RatchetCases.toy_box|]. split; [reflexivity|]. split; [exact toy_keys|]. split; [exact toy_established|].
  split; [exact toy_is_fair|]. split; [|reflexivity]. cbn. Lia.lia.
Qed.
Notation toy_at evs1 := (fst (toy_run (start toy_a toy_b) evs1)).
Notation toy_world := (toy_at toy_evs).
Definition toy_sent : list sent_as := map (fun en => (en_label en, [], [])) (w_log toy_world).
Lemma toy_labels : labels (w_log toy_world) toy_sent.
Proof. unfold toy_sent, labels. induction (w_log toy_world); constructor; auto. Qed.
Notation toy_stolen := (stolen toy_hmac toy_sha toy_x25519 toy_base toy_xs toy_sk).
Definition toy_entry (n : nat) : entry := nth n (w_log toy_world) (mkEntry true (0%nat, 0, 0) [] []).
Example toy_entries : map (fun n => (en_from (toy_entry n), en_label (toy_entry n), en_plain (toy_entry n))) (seq 0 3) =
  map (fun en => (en_from en, en_label en, en_plain en)) (w_log toy_world) /\
  map (fun n => en_label (toy_entry n)) (seq 0 3) = [(2%nat, 0, 0); (1%nat, 1, 0); (1%nat, 0, 0)].
Proof. vm_compute. auto. Qed.
Lemma toy_three : length (w_log toy_world) = 3%nat.
Proof. vm_compute. reflexivity. Qed.
Lemma toy_entry_in n : (n < 3)%nat -> In (toy_entry n) (w_log toy_world).
Proof. intros H. unfold toy_entry. apply nth_In. now rewrite toy_three. Qed.

(** The theorems for the toy functions, stolen after [evs1]. *)
Lemma toy_read evs evs1 evs2 who en :
  conversation toy_hmac toy_sha toy_x25519 toy_base toy_seal toy_unseal toy_scrypt toy_encap toy_decap toy_xs toy_sk 100 toy_a toy_b evs ->
  labels (w_log (toy_at evs)) toy_sent -> In en (w_log (toy_at evs)) -> evs1 ++ evs2 = evs ->
  (derive (toy_stolen (toy_at evs1) who toy_sent) (Msg (en_epoch en) (en_index en)) <->
   readable (toy_at evs1) who (en_epoch en) (en_index en)).
Proof. intros C L H <-. exact (C76_readable _ _ _ _ _ _ _ _ _ _ _ _ _ _ evs1 evs2 who toy_sent _ C L H). Qed.
Lemma toy_forward evs evs1 evs2 who en :
  conversation toy_hmac toy_sha toy_x25519 toy_base toy_seal toy_unseal toy_scrypt toy_encap toy_decap toy_xs toy_sk 100 toy_a toy_b evs ->
  labels (w_log (toy_at evs)) toy_sent -> In en (w_log (toy_at evs1)) -> evs1 ++ evs2 = evs ->
  en_from en = who \/ In (en_epoch en, en_index en) (i_got (w_i (toy_at evs1) who)) ->
  en_epoch en <> 1%nat ->
  ~ (en_epoch en = 2 /\ i_cur (w_i (toy_at evs1) who) = 2 /\ i_turn (w_i (toy_at evs1) who) = false)%nat ->
  ~ derive (toy_stolen (toy_at evs1) who toy_sent) (Msg (en_epoch en) (en_index en)).
Proof. intros C L H <-. exact (C76_forward _ _ _ _ _ _ _ _ _ _ _ _ _ _ evs1 evs2 who toy_sent _ C L H). Qed.
Lemma toy_healing evs evs1 evs2 who en :
  conversation toy_hmac toy_sha toy_x25519 toy_base toy_seal toy_unseal toy_scrypt toy_encap toy_decap toy_xs toy_sk 100 toy_a toy_b evs ->
  labels (w_log (toy_at evs)) toy_sent -> In en (w_log (toy_at evs)) -> evs1 ++ evs2 = evs ->
  (i_cur (w_i (toy_at evs1) who) + (if i_turn (w_i (toy_at evs1) who) then 1 else 2) <= en_epoch en)%nat ->
  ~ derive (toy_stolen (toy_at evs1) who toy_sent) (Msg (en_epoch en) (en_index en)).
Proof. intros C L H <-. exact (C76_healing _ _ _ _ _ _ _ _ _ _ _ _ _ _ evs1 evs2 who toy_sent _ C L H). Qed.
Lemma toy_in0 : In (toy_entry 0) (w_log toy_world).
Proof. apply toy_entry_in. Lia.lia. Qed.
Lemma toy_in2 : In (toy_entry 2) (w_log toy_world).
Proof. apply toy_entry_in. Lia.lia. Qed.

(** Entry 0 is alice's message of epoch 2, entry 2 the first one of bob's.  Bob has read
    alice's message when his ratchet is stolen: it stays secret.  It can be read with the
    ratchet of alice, who has received nothing since. *)
Example C76_forward_case : ~ derive (toy_stolen (toy_at toy_evs) false toy_sent) (Msg (en_epoch (toy_entry 0)) (en_index (toy_entry 0))).
Proof.
  apply (toy_forward toy_evs toy_evs [] false (toy_entry 0) C76_toy toy_labels toy_in0 (app_nil_r _)).
  - right. vm_compute. auto.
  - vm_compute. discriminate.
  - intros (_ & _ & H). vm_compute in H. discriminate.
Qed.
Example C76_second_case : derive (toy_stolen (toy_at toy_evs) true toy_sent) (Msg (en_epoch (toy_entry 0)) (en_index (toy_entry 0))).
Proof. apply (toy_read toy_evs toy_evs [] true (toy_entry 0) C76_toy toy_labels toy_in0 (app_nil_r _)). right. left. vm_compute. auto. Qed.
(** Bob's messages can be read with either ratchet, although alice has read them. *)
Example C76_first_case who : derive (toy_stolen (toy_at toy_evs) who toy_sent) (Msg (en_epoch (toy_entry 2)) (en_index (toy_entry 2))).
Proof. apply (toy_read toy_evs toy_evs [] who (toy_entry 2) C76_toy toy_labels toy_in2 (app_nil_r _)). left. vm_compute. reflexivity. Qed.
(** Alice's ratchet is stolen right after the key exchange: what she sends stays secret;
    bob's is: it does not. *)
Example C76_healing_case : ~ derive (toy_stolen (toy_at []) true toy_sent) (Msg (en_epoch (toy_entry 0)) (en_index (toy_entry 0))).
Proof. apply (toy_healing toy_evs [] toy_evs true (toy_entry 0) C76_toy toy_labels toy_in0 eq_refl). vm_compute. Lia.lia. Qed.
Example C76_next_case : derive (toy_stolen (toy_at []) false toy_sent) (Msg (en_epoch (toy_entry 0)) (en_index (toy_entry 0))).
Proof. apply (toy_read toy_evs [] toy_evs false (toy_entry 0) C76_toy toy_labels toy_in0 eq_refl). right. left. split; [vm_compute; reflexivity|]. left. vm_compute. reflexivity. Qed.
Example C76_server_case e i : ~ derive (sees (fun t => exists e, t = thk e) (wire toy_sent)) (Msg e i).
Proof. eapply C76_server; [exact C76_toy|exact toy_labels]. Qed.
