(** C77: how many lost messages a conversation survives. *)
From Verif Require Import Base BlobModel BlobProps SessionProps RatchetModel RatchetProofs RatchetConvModel RatchetConvProofs RatchetProps
  RatchetCases SecrecyModel SecrecyProofs SecrecyProps GapProofs.
Local Open Scope N_scope.

(** ** Specification *)

Section Spec.
Variable hmac : bytes -> bytes -> bytes.
Variable sha256 : bytes -> bytes.
Variable x25519 : bytes -> bytes -> option bytes.
Variable base : bytes -> bytes.
Variable seal : bytes -> bytes -> bytes -> bytes.
Variable unseal : bytes -> bytes -> bytes -> option bytes.
Variable xs : nat -> bytes.
Variable a b : ratchet.

(** The conversation after some events, and what a ratchet then answers. *)
Definition after (evs : list event) : world := fst (run hmac sha256 x25519 base seal unseal xs (start a b) evs).
Definition says (evs : list event) (ev : event) : option bytes := answer hmac sha256 x25519 base seal unseal xs (after evs) ev.

(** The message was given to [who], whose ratchet opened it. *)
Definition was_read (evs : list event) (who : bool) (en : entry) : Prop :=
  exists evs1 evs2 o t, evs = evs1 ++ Recv who o t (en_ct en) :: evs2 /\ says evs1 (Recv who o t (en_ct en)) <> None.

(** 81 messages in a row, from number [j] of epoch [e] on, that were sent to [who] before
    [en] and satisfy [P].  Messages of one direction between two changes of direction form
    an epoch. *)
Definition in_a_row (evs : list event) (who : bool) (en : entry) (P : entry -> Prop) : Prop :=
  exists e j, ((e < en_epoch en)%nat \/ (e = en_epoch en /\ j + 80 < en_index en)) /\
    forall k, j <= k <= j + 80 -> exists en', In en' (w_log (after evs)) /\ en_from en' = negb who /\
      en_epoch en' = e /\ en_index en' = k /\ P en'.
End Spec.

Lemma recv_label who o t ct : forall hmac sha256 x25519 base seal unseal xs sk w en,
  inv hmac sha256 x25519 base seal xs sk w -> In en (w_log w) -> en_from en = negb who -> en_ct en = ct ->
  let '(w', r) := step hmac sha256 x25519 base seal unseal xs w (Recv who o t ct) in
  ideal_result r = (if snd (ideal_recv (w_i w who) (en_label en) (en_plain en)) then Some (en_plain en) else None) /\
  w_i w' who = fst (ideal_recv (w_i w who) (en_label en) (en_plain en)).
Proof.
  intros hmac sha256 x25519 base seal unseal xs sk w en I Hin F <-. cbn [step].
  destruct (decrypt _ _ _ _ _ _ _ _) as [r' out].
  rewrite (find_sent_spec hmac sha256 x25519 base seal xs sk (w_log w) (negb who) (en_ct en) en (iv_log _ _ _ _ _ _ _ _ I) Hin eq_refl).
  rewrite F, Bool.eqb_reflx, eqb_refl. cbn [andb].
  destruct (ideal_recv _ _ _) as [i' ok]. cbn [snd fst ideal_result w_i]. split; [reflexivity|apply set_eq].
Qed.

Section Conversation.
Variable hmac : bytes -> bytes -> bytes.
Variable sha256 : bytes -> bytes.
Variable x25519 : bytes -> bytes -> option bytes.
Variable base : bytes -> bytes.
Variable seal : bytes -> bytes -> bytes -> bytes.
Variable unseal : bytes -> bytes -> bytes -> option bytes.
Variable scrypt : bytes -> bytes -> bytes.
Variable encap : bytes -> bytes -> bytes * bytes.
Variable decap : bytes -> bytes -> option bytes.
Variable xs : nat -> bytes.
Variable sk : bytes.
Variable E : nat.
Variable a b : ratchet.
Notation conversation := (conversation hmac sha256 x25519 base seal unseal scrypt encap decap xs sk E a b).
Notation after := (after hmac sha256 x25519 base seal unseal xs a b).
Notation says := (says hmac sha256 x25519 base seal unseal xs a b).
Notation was_read := (was_read hmac sha256 x25519 base seal unseal xs a b).
Notation inv := (inv hmac sha256 x25519 base seal xs sk).

Lemma conv_inv evs evs1 evs2 : conversation evs -> evs = evs1 ++ evs2 -> inv (after evs1).
Proof. intros C EQ. apply conversation_inv in C as (half & _ & C). apply (C evs1 evs2 EQ). Qed.

Lemma conv_app evs1 evs2 : conversation (evs1 ++ evs2) -> conversation evs1.
Proof.
  intros (B & BL & K & ES & F & HE & HL). rewrite app_length in *. apply fair_app in F as [F _].
  repeat split; try apply B; try apply K; auto; clear - HE HL; Lia.lia.
Qed.

Lemma conv_gap evs : conversation evs -> dense (w_log (after evs)) /\ forall who, runs (w_log (after evs)) who (w_i (after evs) who).
Proof.
  intros C. unfold GapProps.after. destruct C as (B & BL & K & ES & F & HE & HL) eqn:CQ. pose proof C as C'.
  destruct (established_start _ _ _ _ _ _ _ _ _ _ _ _ (proj1 B) ES) as (ma & mb & Ha & Hb).
  destruct (start_gap hmac base xs sk ma mb) as [S1 S2].
  apply (gap_run hmac sha256 x25519 base seal unseal xs sk).
  - intros evs1 evs2 EQ. exact (conv_inv evs evs1 evs2 C' EQ).
  - rewrite Ha, Hb. exact S1.
  - rewrite Ha, Hb. exact S2.
Qed.

Lemma conv_good evs1 ev evs2 : conversation (evs1 ++ ev :: evs2) ->
  let r := snd (step hmac sha256 x25519 base seal unseal xs (after evs1) ev) in real_result r = ideal_result r.
Proof.
  intros (B & BL & K & ES & F & HE & HL).
  pose proof (C15_simulation hmac sha256 x25519 base seal unseal scrypt encap decap xs sk E a b _ B BL K ES F HE HL) as G.
  apply run_good in G. apply G.
Qed.

Lemma got_read evs who en : conversation evs -> In en (w_log (after evs)) -> en_from en = negb who -> en_plain en <> [] ->
  (In (en_epoch en, en_index en) (i_got (w_i (after evs) who)) <-> was_read evs who en).
Proof.
  intros C Hin FR NP. assert (LB : (en_epoch en, en_index en) = fst (en_label en)).
  { unfold en_epoch, en_index. now destruct (en_label en) as [[? ?] ?]. }
  rewrite LB. split.
  - intros G. pose proof C as (B & BL & (K1 & K2 & K3) & ES & F & HE & HL).
    destruct (established_start _ _ _ _ _ _ _ _ _ _ _ _ (proj1 B) ES) as (ma & mb & Ha & Hb). destruct B as [B1 B2].
    destruct (got_returned hmac sha256 x25519 base seal unseal xs sk E B1 B2 BL K1 K2 K3 evs who en (start a b)) as [Y|Y]; auto.
    + exact (conv_inv evs [] evs C eq_refl).
    + intros []; cbn [start w_i i_alice i_bob i_cur]; clear - HE; Lia.lia.
    + exfalso. destruct who; exact Y.
    + destruct Y as (evs1 & evs2 & o & t & Y1 & Y2). exists evs1, evs2, o, t. split; auto. unfold GapProps.says, GapProps.after. rewrite Y2. discriminate.
  - intros (evs1 & evs2 & o & t & -> & A). pose proof (conv_good _ _ _ C) as G. cbv zeta in G.
    unfold GapProps.says, answer in A. rewrite G in A. clear G. pose proof (conv_inv _ evs1 _ C eq_refl) as I1.
    assert (KE : fst (run hmac sha256 x25519 base seal unseal xs (start a b) (evs1 ++ Recv who o t (en_ct en) :: evs2)) =
      fst (run hmac sha256 x25519 base seal unseal xs (fst (step hmac sha256 x25519 base seal unseal xs (after evs1) (Recv who o t (en_ct en)))) evs2)).
    { change (evs1 ++ Recv who o t (en_ct en) :: evs2) with (evs1 ++ ([Recv who o t (en_ct en)] ++ evs2)). now rewrite !run_app, run_one. }
    assert (Hin1 : In en (w_log (after evs1))).
    { cbn [step] in A. destruct (decrypt _ _ _ _ _ _ _ _) as [r' out].
      destruct (find_sent (w_log (after evs1)) (negb who) (en_ct en)) as [en'|] eqn:FS; [|now destruct A].
      pose proof (find_some _ _ FS) as [F1 F2]. apply andb_prop in F2 as [_ F2]. destruct (eqb_spec (en_ct en') (en_ct en)) as [CT|]; [|discriminate].
      assert (In en' (w_log (after (evs1 ++ Recv who o t (en_ct en) :: evs2)))).
      { unfold GapProps.after. rewrite KE. apply run_keeps. now apply step_keeps. }
      pose proof (conv_inv _ _ [] C (eq_sym (app_nil_r _))) as I2.
      assert (en' = en) as -> by (apply (li_nonce _ _ _ _ _ _ _ _ (iv_log _ _ _ _ _ _ _ _ I2)); auto; now rewrite CT). exact F1. }
    pose proof (recv_label who o t (en_ct en) hmac sha256 x25519 base seal unseal xs sk (after evs1) en I1 Hin1 FR eq_refl) as R.
    unfold GapProps.after at 1. rewrite KE. apply run_keeps.
    destruct (step hmac sha256 x25519 base seal unseal xs (after evs1) (Recv who o t (en_ct en))) as [w1 r]. cbn [fst snd] in *. destruct R as [R1 R2].
    rewrite R2. apply ideal_took. rewrite R1 in A. destruct (snd (ideal_recv _ _ _)); [reflexivity|now destruct A].
Qed.

(** A message not read before, that [who] is given: read unless 81 in a row before it are
    unread. *)
Lemma read_exact evs who o t en : conversation (evs ++ [Recv who o t (en_ct en)]) ->
  (forall en', In en' (w_log (after evs)) -> en_plain en' <> []) ->
  In en (w_log (after evs)) -> en_from en = negb who -> ~ was_read evs who en ->
  (~ in_a_row hmac sha256 x25519 base seal unseal xs a b evs who en (fun en' => ~ was_read evs who en') ->
   says evs (Recv who o t (en_ct en)) = Some (en_plain en)) /\
  (in_a_row hmac sha256 x25519 base seal unseal xs a b evs who en (fun en' => ~ was_read evs who en') ->
   says evs (Recv who o t (en_ct en)) = None).
Proof.
  intros C NE Hin FR NR. pose proof (conv_app _ _ C) as C1. pose proof (conv_inv _ evs _ C eq_refl) as I.
  destruct (conv_gap evs C1) as [DE RU]. specialize (RU who).
  assert (NG : ~ In (en_epoch en, en_index en) (i_got (w_i (after evs) who))) by (rewrite got_read; auto).
  pose proof (gap_exact hmac sha256 x25519 base seal xs sk (after evs) who en I RU Hin FR (NE _ Hin) NG) as GE.
  assert (EQ : (exists e' j, hole (after evs) who e' j /\ before e' j (en_epoch en) (en_index en)) <->
               in_a_row hmac sha256 x25519 base seal unseal xs a b evs who en (fun en' => ~ was_read evs who en')).
  { split.
    - intros (e & j & (H1 & H2 & H3 & H4) & B). exists e, j. split; [exact B|]. intros k K.
      destruct (DE e k) as (en' & D1 & D2 & D3); [clear - K H3; Lia.lia|]. exists en'.
      pose proof (li_genuine _ _ _ _ _ _ _ _ (iv_log _ _ _ _ _ _ _ _ I) en' D1) as G. unfold genuine in G.
      assert (FR' : en_from en' = negb who).
      { unfold en_epoch in D2. destruct (en_label en') as [[e0 i0] p0]. cbn [fst] in D2. subst e0.
        destruct G as (? & ? & _ & _ & _ & _ & G & _). now rewrite G. }
      repeat split; auto. rewrite <- got_read; auto. rewrite D2, D3. now apply H4.
    - intros (e & j & B & H). exists e, j. split; [|exact B].
      destruct (H (j + 80)) as (en' & D1 & D2 & D3 & D4 & _); [clear; Lia.lia|].
      pose proof (entry_facts hmac sha256 x25519 base seal xs sk (after evs) who en' I D1 D2) as (F1 & F2 & F3 & _). rewrite D3 in F1, F2, F3. rewrite D4 in F3.
      split; [exact F1|]. split; [exact F2|]. split; [exact F3|]. intros k K.
      destruct (H k K) as (en2 & G1 & G2 & G3 & G4 & G5). rewrite <- G3, <- G4. rewrite got_read; auto. }
  pose proof (conv_good evs (Recv who o t (en_ct en)) [] C) as G. cbv zeta in G. unfold GapProps.says, answer. rewrite G.
  pose proof (recv_label who o t (en_ct en) hmac sha256 x25519 base seal unseal xs sk (after evs) en I Hin FR eq_refl) as R.
  destruct (step hmac sha256 x25519 base seal unseal xs (after evs) (Recv who o t (en_ct en))) as [w1 r]. cbn [snd] in *. destruct R as [-> _].
  rewrite <- EQ. split.
  - intros N. apply GE in N. now rewrite N.
  - intros H. destruct (snd (ideal_recv _ _ _)); auto. exfalso. now apply GE.
Qed.
End Conversation.

(** ** C77 *)

(** Nobody sends empty messages (the client's bodies have a header).  A message that a
    party is given for the first time, or was refused before, is read unless before it 81
    messages in a row were sent and not read. *)
Theorem C77_exact hmac sha256 x25519 base seal unseal scrypt encap decap xs sk E a b evs who o t en :
  conversation hmac sha256 x25519 base seal unseal scrypt encap decap xs sk E a b (evs ++ [Recv who o t (en_ct en)]) ->
  let after := after hmac sha256 x25519 base seal unseal xs a b in
  let says := says hmac sha256 x25519 base seal unseal xs a b in
  let was_read := was_read hmac sha256 x25519 base seal unseal xs a b in
  let in_a_row := in_a_row hmac sha256 x25519 base seal unseal xs a b in
  (forall en', In en' (w_log (after evs)) -> en_plain en' <> []) ->
  In en (w_log (after evs)) -> en_from en = negb who -> ~ was_read evs who en ->
  (~ in_a_row evs who en (fun en' => ~ was_read evs who en') -> says evs (Recv who o t (en_ct en)) = Some (en_plain en)) /\
  (in_a_row evs who en (fun en' => ~ was_read evs who en') -> says evs (Recv who o t (en_ct en)) = None).
Proof. cbv zeta. apply read_exact. Qed.
Print Assumptions C77_exact.

(** Up to 80 unread messages before it do not matter. *)
Theorem C77_within hmac sha256 x25519 base seal unseal scrypt encap decap xs sk E a b evs who o t en :
  conversation hmac sha256 x25519 base seal unseal scrypt encap decap xs sk E a b (evs ++ [Recv who o t (en_ct en)]) ->
  let after := after hmac sha256 x25519 base seal unseal xs a b in
  let says := says hmac sha256 x25519 base seal unseal xs a b in
  let was_read := was_read hmac sha256 x25519 base seal unseal xs a b in
  (forall en', In en' (w_log (after evs)) -> en_plain en' <> []) ->
  In en (w_log (after evs)) -> en_from en = negb who -> ~ was_read evs who en ->
  (forall l, NoDup l ->
     (forall en', In en' l -> In en' (w_log (after evs)) /\ en_from en' = negb who /\ ~ was_read evs who en' /\
        ((en_epoch en' < en_epoch en)%nat \/ (en_epoch en' = en_epoch en /\ en_index en' < en_index en))) ->
     (length l <= 80)%nat) ->
  says evs (Recv who o t (en_ct en)) = Some (en_plain en).
Proof.
  intros C after0 says0 was_read0 NE Hin FR NR FEW. eapply read_exact; eauto. intros (e & j & B & H).
  assert (X : forall n, (n <= 81)%nat -> exists l, length l = n /\ NoDup l /\
    forall en', In en' l -> (j <= en_index en' < j + N.of_nat n) /\ In en' (w_log (after0 evs)) /\ en_from en' = negb who /\ en_epoch en' = e /\ ~ was_read0 evs who en').
  { induction n as [|n IH]; intros Hn; [exists []; repeat split; [constructor|..]; contradiction|].
    destruct IH as (l & L1 & L2 & L3); [clear - Hn; Lia.lia|].
    destruct (H (j + N.of_nat n)) as (en' & D1 & D2 & D3 & D4 & D5); [clear - Hn; Lia.lia|].
    exists (en' :: l). split; [cbn; now f_equal|]. split.
    - constructor; auto. intros Q. apply L3 in Q as [Q _]. rewrite D4 in Q. clear - Q. Lia.lia.
    - intros en2 [<-|Q].
      + rewrite D4. repeat split; auto; clear; Lia.lia.
      + destruct (L3 _ Q) as (Q1 & Q2). split; [clear - Q1; Lia.lia|exact Q2]. }
  destruct (X 81%nat (le_n _)) as (l & L1 & L2 & L3).
  assert (length l <= 80)%nat as LE; [|rewrite L1 in LE; clear - LE; Lia.lia].
  apply FEW; auto. intros en' Q. destruct (L3 _ Q) as (Q1 & Q2 & Q3 & Q4 & Q5). repeat split; auto. rewrite Q4.
  destruct B as [B|[B1 B2]]; [now left|right]. split; auto. clear - Q1 B2. Lia.lia.
Qed.
Print Assumptions C77_within.

(** 81 messages in a row that never arrive: no later one is ever read, however often it is
    delivered. *)
Theorem C77_dead hmac sha256 x25519 base seal unseal scrypt encap decap xs sk E a b evs who o t en :
  conversation hmac sha256 x25519 base seal unseal scrypt encap decap xs sk E a b (evs ++ [Recv who o t (en_ct en)]) ->
  let after := after hmac sha256 x25519 base seal unseal xs a b in
  let says := says hmac sha256 x25519 base seal unseal xs a b in
  let in_a_row := in_a_row hmac sha256 x25519 base seal unseal xs a b in
  (forall en', In en' (w_log (after evs)) -> en_plain en' <> []) ->
  In en (w_log (after evs)) -> en_from en = negb who ->
  in_a_row evs who en (fun en' => forall o t, ~ In (Recv who o t (en_ct en')) evs) ->
  says evs (Recv who o t (en_ct en)) = None.
Proof.
  intros C after0 says0 in_a_row0 NE Hin FR (e & j & B & H).
  assert (U : in_a_row0 evs who en (fun en' => ~ was_read hmac sha256 x25519 base seal unseal xs a b evs who en')).
  { exists e, j. split; [exact B|]. intros k K. destruct (H k K) as (en' & D1 & D2 & D3 & D4 & D5). exists en'. repeat split; auto.
    intros (evs1 & evs2 & o' & t' & -> & _). apply (D5 o' t'). apply in_or_app. right. now left. }
  destruct (mem (en_epoch en, en_index en) (i_got (w_i (after0 evs) who))) eqn:M.
  - apply mem_In in M. pose proof (conv_good hmac sha256 x25519 base seal unseal scrypt encap decap xs sk E a b evs _ [] C) as G. cbv zeta in G.
    unfold says0, GapProps.says, answer. rewrite G.
    pose proof (conv_inv hmac sha256 x25519 base seal unseal scrypt encap decap xs sk E a b _ evs _ C eq_refl) as I.
    pose proof (recv_label who o t (en_ct en) hmac sha256 x25519 base seal unseal xs sk (after0 evs) en I Hin FR eq_refl) as R. unfold after0 in R.
    destruct (step hmac sha256 x25519 base seal unseal xs _ _) as [w1 r]. cbn [snd]. destruct R as [-> _].
    rewrite ideal_again; [reflexivity|]. unfold en_epoch, en_index in M. now destruct (en_label en) as [[? ?] ?].
  - eapply read_exact; eauto. intros Q. assert (X : In (en_epoch en, en_index en) (i_got (w_i (after0 evs) who))).
    { eapply got_read; eauto. eapply conv_app; eauto. }
    apply mem_In in X. rewrite X in M. discriminate.
Qed.
Print Assumptions C77_dead.

(** ** Cases: bob sends many messages, and none but the last arrives *)

Definition gap_sends (n : nat) : list event := map (fun k => Send false (nn (2 * N.of_nat k + 1)) (nn (2 * N.of_nat k + 2)) (bs "m")) (seq 0 n).
Notation toy_conv evs := (conversation toy_hmac toy_sha toy_x25519 toy_base toy_seal toy_unseal toy_scrypt toy_encap toy_decap toy_xs toy_sk 100 toy_a toy_b evs).
Definition no_entry : entry := mkEntry true (0%nat, 0, 0) [] [].
Definition last_sent (n : nat) : entry := hd no_entry (w_log (toy_at (gap_sends n))).

Lemma toy_fair_conv evs : fairb (start toy_a toy_b) evs = true ->
  Forall (fun ev => match ev with Recv _ order _ _ => forall l, Permutation l (order l) | _ => True end) evs ->
  (length evs + 2 <= 100)%nat -> (N.of_nat (length evs) <? 2 ^ 32 - 1) = true -> toy_conv evs.
Proof.
  intros F P L1 L2. split; [exact RatchetCases.toy_box|]. split; [reflexivity|]. split; [exact toy_keys|]. split; [exact toy_established|].
  split; [now apply fairb_ok|]. split; [exact L1|]. now apply N.ltb_lt.
Qed.
Lemma gap_conv n : fairb (start toy_a toy_b) (gap_sends n ++ [Recv true (fun l => l) 0 (en_ct (last_sent n))]) = true ->
  (n <= 97)%nat -> toy_conv (gap_sends n ++ [Recv true (fun l => l) 0 (en_ct (last_sent n))]).
Proof.
  intros F L. assert (LE : length (gap_sends n ++ [Recv true (fun l => l) 0 (en_ct (last_sent n))]) = S n).
  { rewrite app_length. unfold gap_sends. rewrite map_length, seq_length. cbn [length]. clear. Lia.lia. }
  apply toy_fair_conv; auto.
  - apply Forall_app. split; [|constructor; auto]. apply Forall_forall. intros ev Q. unfold gap_sends in Q. apply in_map_iff in Q as (k & <- & _). exact I.
  - rewrite LE. clear - L. Lia.lia.
  - rewrite LE. apply N.ltb_lt. clear - L. Lia.lia.
Qed.

Definition row_of (n : nat) : list (bool * nat * N) := map (fun en => (en_from en, en_epoch en, en_index en)) (w_log (toy_at (gap_sends n))).
Lemma row_at n k f e i : nth_error (row_of n) k = Some (f, e, i) ->
  exists en, In en (w_log (toy_at (gap_sends n))) /\ en_from en = f /\ en_epoch en = e /\ en_index en = i.
Proof.
  unfold row_of. intros H. rewrite nth_error_map in H. destruct (nth_error (w_log (toy_at (gap_sends n))) k) as [en|] eqn:Q; [|discriminate].
  cbn [option_map] in H. injection H as <- <- <-. exists en. repeat split; auto. eapply nth_error_In; eauto.
Qed.
Lemma all_say n : forallb (fun en => negb (eqb (en_plain en) [])) (w_log (toy_at (gap_sends n))) = true ->
  forall en, In en (w_log (toy_at (gap_sends n))) -> en_plain en <> [].
Proof. intros H en I Q. rewrite forallb_forall in H. specialize (H _ I). rewrite Q in H. discriminate. Qed.
Lemma no_recv n who o t ct : ~ In (Recv who o t ct) (gap_sends n).
Proof. unfold gap_sends. rewrite in_map_iff. intros (k & Q & _). discriminate. Qed.

Lemma dead_after n : toy_conv (gap_sends n ++ [Recv true (fun l => l) 0 (en_ct (last_sent n))]) ->
  forallb (fun en => negb (eqb (en_plain en) [])) (w_log (toy_at (gap_sends n))) = true ->
  row_of n = map (fun k => (false, 1%nat, N.of_nat k)) (rev (seq 0 n)) -> (82 <= n)%nat ->
  hd_error (w_log (toy_at (gap_sends n))) = Some (last_sent n) ->
  says toy_hmac toy_sha toy_x25519 toy_base toy_seal toy_unseal toy_xs toy_a toy_b (gap_sends n) (Recv true (fun l => l) 0 (en_ct (last_sent n))) = None.
Proof.
  intros C NE R L HD.
  assert (IN : In (last_sent n) (w_log (toy_at (gap_sends n)))) by (destruct (w_log _); [discriminate|]; injection HD as ->; now left).
  assert (X : hd_error (row_of n) = Some (en_from (last_sent n), en_epoch (last_sent n), en_index (last_sent n))).
  { unfold row_of. destruct (w_log _); [discriminate|]. injection HD as ->. reflexivity. }
  rewrite R in X. destruct n as [|n]; [clear - L; Lia.lia|]. rewrite seq_S, rev_app_distr in X. cbn [rev app map hd_error Nat.add] in X. injection X as X1 X2 X3.
  apply (C77_dead _ _ _ _ _ _ _ _ _ _ _ _ _ _ _ _ _ _ _ C (all_say _ NE) IN (eq_sym X1)).
  exists 1%nat, 0. split; [right; split; auto; rewrite <- X3; clear - L; Lia.lia|]. intros k K.
  destruct (row_at (S n) (n - N.to_nat k) false 1%nat k) as (en & A1 & A2 & A3 & A4).
  - rewrite R, nth_error_map, nth_error_nth' with (d := 0%nat) by (rewrite rev_length, seq_length; clear - L K; Lia.lia).
    rewrite rev_nth, seq_nth, seq_length by (rewrite ?seq_length; clear - L K; Lia.lia). cbn [option_map]. do 2 f_equal. clear - L K. Lia.lia.
  - exists en. repeat split; auto. intros o t. apply no_recv.
Qed.
Example C77_dead_case :
  says toy_hmac toy_sha toy_x25519 toy_base toy_seal toy_unseal toy_xs toy_a toy_b (gap_sends 82) (Recv true (fun l => l) 0 (en_ct (last_sent 82))) = None.
Proof.
  apply dead_after.
  - apply gap_conv; [vm_compute; reflexivity|]. clear. Lia.lia.
  - vm_compute. reflexivity.
  - vm_compute. reflexivity.
  - clear. Lia.lia.
  - vm_compute. reflexivity.
Qed.

(** With one message less before it, it is read. *)
Lemma read_after n : toy_conv (gap_sends n ++ [Recv true (fun l => l) 0 (en_ct (last_sent n))]) ->
  forallb (fun en => negb (eqb (en_plain en) [])) (w_log (toy_at (gap_sends n))) = true ->
  hd_error (w_log (toy_at (gap_sends n))) = Some (last_sent n) -> en_from (last_sent n) = false ->
  length (w_log (toy_at (gap_sends n))) = n -> (n <= 81)%nat ->
  says toy_hmac toy_sha toy_x25519 toy_base toy_seal toy_unseal toy_xs toy_a toy_b (gap_sends n) (Recv true (fun l => l) 0 (en_ct (last_sent n))) =
    Some (en_plain (last_sent n)).
Proof.
  intros C NE HD FR LE L.
  assert (SP : exists r, w_log (toy_at (gap_sends n)) = last_sent n :: r) by (destruct (w_log _) as [|x r]; [discriminate|]; injection HD as ->; now exists r).
  destruct SP as [r SP].
  assert (IN : In (last_sent n) (w_log (toy_at (gap_sends n)))) by (rewrite SP; now left).
  apply (C77_within _ _ _ _ _ _ _ _ _ _ _ _ _ _ _ _ _ _ _ C (all_say _ NE) IN FR).
  - intros (evs1 & evs2 & o & t & Q & _). apply (no_recv n true o t (en_ct (last_sent n))). rewrite Q. apply in_or_app. right. now left.
  - intros l ND H. assert (length l <= length r)%nat as Y.
    { apply NoDup_incl_length; auto. intros en I. destruct (H _ I) as (H1 & _ & _ & H2). unfold after in H1. rewrite SP in H1.
      destruct H1 as [<-|H1]; [|exact H1]. exfalso. clear - H2. Lia.lia. }
    rewrite SP in LE. cbn [length] in LE. clear - Y LE L. Lia.lia.
Qed.
Example C77_within_case :
  says toy_hmac toy_sha toy_x25519 toy_base toy_seal toy_unseal toy_xs toy_a toy_b (gap_sends 81) (Recv true (fun l => l) 0 (en_ct (last_sent 81))) = Some (bs "m").
Proof.
  replace (bs "m") with (en_plain (last_sent 81)) by (vm_compute; reflexivity). apply read_after.
  - apply gap_conv; [vm_compute; reflexivity|]. clear. Lia.lia.
  - vm_compute. reflexivity.
  - vm_compute. reflexivity.
  - vm_compute. reflexivity.
  - vm_compute. reflexivity.
  - clear. Lia.lia.
Qed.
