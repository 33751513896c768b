(** Proofs for C77: which messages a ratchet refuses after others were lost. *)
From Verif Require Import Base RatchetModel RatchetProofs RatchetConvModel RatchetConvProofs.
Local Open Scope N_scope.

Section Gap.
Variable hmac : bytes -> bytes -> bytes.
Variable sha256 : bytes -> bytes.
Variable x25519 : bytes -> bytes -> option bytes.
Variable base : bytes -> bytes.
Variable seal : bytes -> bytes -> bytes -> bytes.
Variable unseal : bytes -> bytes -> bytes -> option bytes.
Variable xs : nat -> bytes.
Variable sk : bytes.
Notation step := (step hmac sha256 x25519 base seal unseal xs).
Notation run := (run hmac sha256 x25519 base seal unseal xs).
Notation inv := (inv hmac sha256 x25519 base seal xs sk).
Notation party_inv := (party_inv hmac sha256 x25519 base xs sk).

(** The messages of an epoch are numbered without holes. *)
Definition dense (log : list entry) : Prop :=
  forall e i, i < cnt log e -> exists en, In en log /\ en_epoch en = e /\ en_index en = i.

(** Of 81 messages in a row that a party has passed, it has taken one. *)
Definition runs (log : list entry) (who : bool) (p : iparty) : Prop :=
  (forall e j, (1 <= e <= recv_epoch p)%nat -> sender e = negb who -> j + 80 < known log p e ->
     exists k, j <= k <= j + 80 /\ In (e, k) (i_got p)) /\
  (0 < i_high p -> In (recv_epoch p, i_high p - 1) (i_got p)).

Lemma parity e e' : sender e = sender e' -> e <> S e' /\ e' <> S e.
Proof.
  unfold sender. split; intros ->; rewrite Nat.even_succ, <- Nat.negb_even in H; now destruct (Nat.even _).
Qed.

Lemma send_label p : snd (ideal_send p) =
  if i_turn p then (S (i_cur p), 0, i_sent p) else (i_cur p, i_sent p, i_prev p).
Proof. unfold ideal_send. now destruct (i_turn p). Qed.
Lemma send_recv p : (1 <= i_cur p)%nat -> recv_epoch (fst (ideal_send p)) = recv_epoch p /\ i_high (fst (ideal_send p)) = i_high p /\
  i_got (fst (ideal_send p)) = i_got p.
Proof. intros H. unfold ideal_send, recv_epoch. destruct (i_turn p); cbn; auto. Qed.

Lemma known_cons en log p p' e : recv_epoch p' = recv_epoch p -> i_high p' = i_high p ->
  en_epoch en <> e \/ e = recv_epoch p -> known (en :: log) p' e = known log p e.
Proof.
  intros R H D. unfold known. rewrite R, H. destruct (Nat.eqb_spec e (recv_epoch p)); auto. rewrite cnt_cons.
  destruct D as [D|]; [|contradiction]. destruct (Nat.eqb_spec (en_epoch en) e); [contradiction|]. reflexivity.
Qed.

(** The sender's epoch is not below what the receiver has reached. *)
Lemma send_above w who : inv w -> (recv_epoch (w_i w (negb who)) <= fst (fst (snd (ideal_send (w_i w who)))))%nat.
Proof.
  intros I. rewrite send_label. destruct (two_who _ _ _ _ _ _ _ w who I) as (T1 & T2 & T3). unfold recv_epoch.
  destruct (i_turn (w_i w who)) eqn:A, (i_turn (w_i w (negb who))) eqn:B; cbn [fst snd].
  - destruct (T1 eq_refl) as [Q _]. discriminate.
  - destruct (T1 eq_refl) as [_ Q]. clear - Q. Lia.lia.
  - destruct (T2 eq_refl) as [_ Q]. clear - Q. Lia.lia.
  - destruct (T3 eq_refl eq_refl); clear - H; Lia.lia.
Qed.
Lemma send_new w who : inv w -> snd (fst (snd (ideal_send (w_i w who)))) = cnt (w_log w) (fst (fst (snd (ideal_send (w_i w who))))).
Proof.
  intros I. rewrite send_label. pose proof (iv_party _ _ _ _ _ _ _ _ I who) as P. pose proof (pi_sent _ _ _ _ _ _ _ _ _ _ P) as S.
  destruct (i_turn (w_i w who)) eqn:A; cbn [fst snd]; [|exact S].
  destruct (two_who _ _ _ _ _ _ _ w who I) as (T1 & _). destruct (T1 A) as [_ Q].
  symmetry. eapply (cnt_who hmac sha256 x25519 base seal xs sk w who I); rewrite ?Q; clear; Lia.lia.
Qed.
Lemma send_parity w who : inv w -> sender (fst (fst (snd (ideal_send (w_i w who))))) = who.
Proof.
  intros I. rewrite send_label. pose proof (pi_parity _ _ _ _ _ _ _ _ _ _ (iv_party _ _ _ _ _ _ _ _ I who)) as P.
  destruct (i_turn (w_i w who)); cbn [fst snd]; [|exact P]. unfold sender in *. rewrite Nat.even_succ, <- Nat.negb_even, P. apply negb_involutive.
Qed.

Lemma runs_recv log who r p l m p' ok : party_inv log who r p -> runs log who p -> sender (fst (fst l)) = negb who ->
  (fst (fst l) <= S (i_cur p))%nat -> (i_turn p = true -> fst (fst l) <= i_cur p)%nat -> snd l = cnt log (fst (fst l) - 2) ->
  ideal_recv p l m = (p', ok) -> runs log who p'.
Proof.
  intros P [R1 R2] SE LE LT PV D. destruct l as [[e i] prev]. cbn [fst snd] in *. unfold ideal_recv in D.
  pose proof (pi_cur _ _ _ _ _ _ _ _ _ _ P) as CU. pose proof (pi_parity _ _ _ _ _ _ _ _ _ _ P) as PA.
  destruct (mem (e, i) (i_got p)); [injection D as <- <-; split; auto|].
  destruct ((e <? recv_epoch p)%nat || ((e =? recv_epoch p)%nat && (i <? i_high p))) eqn:OLD.
  { apply pair_equal_spec in D as [<- _]. split.
    - intros e0 j H1 H2 H3. destruct (R1 e0 j H1 H2 H3) as (k & K1 & K2). exists k. cbn; auto.
    - cbn. intros H. right. apply R2, H. }
  apply orb_false_iff in OLD as [O1 O2]. apply Nat.ltb_ge in O1.
  destruct (Nat.eqb_spec e (recv_epoch p)) as [->|NE].
  - cbn [andb] in O2. apply N.ltb_ge in O2. destruct (N.ltb_spec 80 (i - i_high p)) as [G|G]; [injection D as <- <-; split; auto|].
    apply pair_equal_spec in D as [<- _]. split.
    + change (recv_epoch (mkI (i_cur p) (i_turn p) (i_sent p) (i_prev p) (i + 1) ((recv_epoch p, i) :: i_got p))) with (recv_epoch p).
      intros e0 j H1 H2 H3. cbn [i_got]. unfold known in H3.
      change (recv_epoch (mkI (i_cur p) (i_turn p) (i_sent p) (i_prev p) (i + 1) ((recv_epoch p, i) :: i_got p))) with (recv_epoch p) in H3.
      cbn [i_high] in H3. destruct (Nat.eqb_spec e0 (recv_epoch p)) as [->|NE0].
      * destruct (N.eq_dec (j + 80) i) as [Q|Q]; [exists i; split; [clear - Q; Lia.lia|now left]|].
        destruct (N.lt_ge_cases (j + 80) (i_high p)) as [Q2|Q2].
        -- destruct (R1 (recv_epoch p) j H1 H2) as (k & K1 & K2); [unfold known; rewrite Nat.eqb_refl; exact Q2|]. exists k. split; auto. now right.
        -- exists (i_high p - 1). split; [clear - Q Q2 H3 G; Lia.lia|]. right. apply R2. clear - Q Q2 H3 G. Lia.lia.
      * destruct (R1 e0 j H1 H2) as (k & K1 & K2).
        { unfold known. destruct (Nat.eqb_spec e0 (recv_epoch p)); [contradiction|exact H3]. }
        exists k. split; auto. now right.
    + cbn. intros _. left. f_equal. clear. Lia.lia.
  - destruct ((80 <? prev - i_high p) || (80 <? i)) eqn:G; [injection D as <- <-; split; auto|].
    apply orb_false_iff in G as [G1 G2]. apply N.ltb_ge in G1, G2. apply pair_equal_spec in D as [<- _].
    assert (TU : i_turn p = false /\ e = S (i_cur p)).
    { unfold recv_epoch in *. destruct (i_turn p) eqn:TU.
      - exfalso. specialize (LT eq_refl). clear - LT O1 NE. Lia.lia.
      - split; auto. destruct (Nat.eq_dec e (i_cur p)) as [->|]; [rewrite PA in SE; now destruct who|]. clear - LE O1 NE n. Lia.lia. }
    destruct TU as [TU ->]. split.
    + intros e0 j H1 H2 H3. cbn [i_got]. unfold known in H3. unfold recv_epoch in H1, H3. cbn [i_turn i_cur i_high] in H1, H3.
      destruct (Nat.eqb_spec e0 (S (i_cur p))) as [->|NE0].
      * exists i. split; [clear - H3 G2; Lia.lia|now left].
      * destruct (parity e0 (S (i_cur p))) as [P1 P2]; [congruence|].
        assert (e0 <= recv_epoch p)%nat by (unfold recv_epoch; rewrite TU; clear - H1 NE0 P2; Lia.lia).
        destruct (Nat.eq_dec e0 (recv_epoch p)) as [->|NR].
        -- assert (PC : prev = cnt log (recv_epoch p)) by (rewrite PV; f_equal; unfold recv_epoch; rewrite TU; clear; Lia.lia).
           rewrite <- PC in H3. destruct (N.lt_ge_cases (j + 80) (i_high p)) as [Q2|Q2].
           ++ destruct (R1 (recv_epoch p) j) as (k & K1 & K2); [split; [apply H1|auto]|auto|unfold known; rewrite Nat.eqb_refl; exact Q2|].
              exists k. split; auto. now right.
           ++ exists (i_high p - 1). split; [clear - Q2 H3 G1; Lia.lia|]. right. apply R2. clear - Q2 H3 G1. Lia.lia.
        -- destruct (R1 e0 j) as (k & K1 & K2); [split; [apply H1|auto]|auto| |exists k; split; auto; now right].
           unfold known. destruct (Nat.eqb_spec e0 (recv_epoch p)); [contradiction|exact H3].
    + cbn. intros _. left. f_equal. clear. Lia.lia.
Qed.

(** What is known of a message that was sent. *)
Lemma entry_facts w who en : inv w -> In en (w_log w) -> en_from en = negb who ->
  (1 <= en_epoch en)%nat /\ sender (en_epoch en) = negb who /\ en_index en < cnt (w_log w) (en_epoch en) /\
  snd (en_label en) = cnt (w_log w) (en_epoch en - 2) /\
  (en_epoch en <= S (i_cur (w_i w who)))%nat /\ (i_turn (w_i w who) = true -> en_epoch en <= i_cur (w_i w who))%nat.
Proof.
  intros I Hin F. pose proof (li_genuine _ _ _ _ _ _ _ _ (iv_log _ _ _ _ _ _ _ _ I) en Hin) as G. unfold genuine in G.
  assert (X : (en_epoch en <= i_cur (w_i w who))%nat \/ (en_epoch en <= i_cur (w_i w (negb who)))%nat).
  { destruct (Nat.le_gt_cases (en_epoch en) (i_cur (w_i w who))) as [|H1]; auto.
    destruct (Nat.le_gt_cases (en_epoch en) (i_cur (w_i w (negb who)))) as [|H2]; auto. exfalso.
    pose proof (cnt_who hmac sha256 x25519 base seal xs sk w who I _ H1 H2) as C. unfold en_epoch in C.
    destruct (en_label en) as [[e i] pv]. cbn [fst] in C. destruct G as (? & ? & _ & _ & _ & _ & _ & G & _). rewrite C in G. clear - G. Lia.lia. }
  unfold en_epoch, en_index in *. destruct (en_label en) as [[e i] pv]. cbn [fst snd] in *.
  destruct G as (hn & mn & _ & _ & _ & G1 & G2 & G3 & G4). rewrite F in G2.
  destruct (two_who _ _ _ _ _ _ _ w who I) as (T1 & T2 & T3).
  split; [auto|]. split; [auto|]. split; [auto|]. split; [auto|].
  destruct (i_turn (w_i w who)) eqn:A.
  - destruct (T1 eq_refl) as [_ Q]. split; intros; clear - X Q; Lia.lia.
  - split; [|discriminate]. destruct (i_turn (w_i w (negb who))) eqn:B.
    + destruct (T2 eq_refl) as [_ Q]. clear - X Q. Lia.lia.
    + destruct (T3 eq_refl eq_refl) as [Q|Q]; clear - X Q; Lia.lia.
Qed.

Lemma gap_step w ev : inv w -> dense (w_log w) -> (forall who, runs (w_log w) who (w_i w who)) ->
  dense (w_log (fst (step w ev))) /\ forall who, runs (w_log (fst (step w ev))) who (w_i (fst (step w ev)) who).
Proof.
  intros I DE RU. destruct ev as [who hn mn msg|who order now ct]; cbn [RatchetConvModel.step].
  - pose proof (send_above w who I) as AB. pose proof (send_new w who I) as NW. pose proof (send_parity w who I) as PA.
    pose proof (send_recv (w_i w who) (pi_cur _ _ _ _ _ _ _ _ _ _ (iv_party _ _ _ _ _ _ _ _ I who))) as (S1 & S2 & S3).
    destruct (ideal_send (w_i w who)) as [i' l]. cbn [fst snd] in *.
    destruct (encrypt _ _ _ _ _ _ _ _ _ _) as [r' [ct|]]; cbn [fst w_log w_i]; [|auto]. split.
    + intros e i H. rewrite cnt_cons in H. cbn [en_epoch en_label] in H. unfold en_epoch in H. cbn [en_label] in H.
      destruct (N.lt_ge_cases i (cnt (w_log w) e)) as [Q|Q].
      * destruct (DE e i Q) as (en & A & B). exists en. split; [now right|exact B].
      * destruct (Nat.eqb_spec (fst (fst l)) e) as [<-|]; [|clear - Q H; Lia.lia].
        eexists. split; [left; reflexivity|]. unfold en_epoch, en_index. cbn [en_label]. split; [reflexivity|]. rewrite NW. clear - Q H. Lia.lia.
    + intros b. unfold set. destruct (Bool.eqb b who) eqn:Q.
      * apply Bool.eqb_prop in Q. subst b. destruct (RU who) as [R1 R2]. split; [|rewrite S1, S2, S3; exact R2].
        intros e j. rewrite S1, S3. intros H1 H2 H3. apply (R1 e j H1 H2). rewrite <- (known_cons (mkEntry who l msg ct) (w_log w) (w_i w who) i' e); auto.
        left. unfold en_epoch. cbn [en_label]. intros <-. rewrite PA in H2. now destruct who.
      * assert (b = negb who) by (destruct b, who; auto; discriminate). subst b. destruct (RU (negb who)) as [R1 R2]. split; [|exact R2].
        intros e j H1 H2 H3. apply (R1 e j H1 H2). rewrite <- (known_cons (mkEntry who l msg ct) (w_log w) (w_i w (negb who)) (w_i w (negb who)) e); auto.
        unfold en_epoch. cbn [en_label]. destruct (Nat.eq_dec e (recv_epoch (w_i w (negb who)))) as [->|NE]; [now right|]. left.
        clear - NE AB H1. Lia.lia.
  - destruct (decrypt _ _ _ _ _ _ _ _) as [r' out].
    destruct (find_sent (w_log w) (negb who) ct) as [en|] eqn:FS.
    + pose proof (find_some _ _ FS) as [Hin FF]. apply andb_prop in FF as [FF _]. apply Bool.eqb_prop in FF.
      destruct (ideal_recv (w_i w who) (en_label en) (en_plain en)) as [i' ok] eqn:D. cbn [fst w_log w_i]. split; auto.
      intros b. unfold set. destruct (Bool.eqb b who) eqn:Q; [|apply RU]. apply Bool.eqb_prop in Q. subst b.
      destruct (entry_facts w who en I Hin FF) as (F1 & F2 & F3 & F4 & F5 & F6).
      eapply runs_recv; [apply (iv_party _ _ _ _ _ _ _ _ I)|apply RU|exact F2|exact F5|exact F6|exact F4|exact D].
    + cbn [fst w_log w_i]. split; auto. intros b. unfold set. destruct (Bool.eqb b who) eqn:Q; [|apply RU]. apply Bool.eqb_prop in Q. subst b. apply RU.
Qed.

(** The messages from [j] on, 81 of them, were sent in epoch [e'] and not taken. *)
Definition hole (w : world) (who : bool) (e' : nat) (j : N) : Prop :=
  (1 <= e')%nat /\ sender e' = negb who /\ j + 80 < cnt (w_log w) e' /\ forall k, j <= k <= j + 80 -> ~ In (e', k) (i_got (w_i w who)).
Definition before (e' : nat) (j : N) (e : nat) (i : N) : Prop := (e' < e)%nat \/ (e' = e /\ j + 80 < i).

Lemma gap_exact w who en : inv w -> runs (w_log w) who (w_i w who) -> In en (w_log w) -> en_from en = negb who -> en_plain en <> [] ->
  ~ In (en_epoch en, en_index en) (i_got (w_i w who)) ->
  (snd (ideal_recv (w_i w who) (en_label en) (en_plain en)) = true <->
   ~ exists e' j, hole w who e' j /\ before e' j (en_epoch en) (en_index en)).
Proof.
  intros I [R1 R2] Hin FR NP NG. destruct (entry_facts w who en I Hin FR) as (F1 & F2 & F3 & F4 & F5 & F6).
  pose proof (iv_party _ _ _ _ _ _ _ _ I who) as P. set (p := w_i w who) in *.
  pose proof (pi_cur _ _ _ _ _ _ _ _ _ _ P) as CU. pose proof (pi_parity _ _ _ _ _ _ _ _ _ _ P) as PA.
  pose proof (pi_got _ _ _ _ _ _ _ _ _ _ P) as PG.
  unfold en_epoch, en_index in *. destruct (en_label en) as [[e i] prev]. cbn [fst snd] in *.
  (* no hole in what was passed *)
  assert (NH : forall e' j, hole w who e' j -> (recv_epoch p <= e')%nat /\ (e' = recv_epoch p -> i_high p <= j)).
  { intros e' j (H1 & H2 & H3 & H4). fold p in H4. destruct (Nat.lt_trichotomy e' (recv_epoch p)) as [L|[L|L]].
    - exfalso. destruct (R1 e' j) as (k & K1 & K2); auto; [clear - H1 L; Lia.lia| |exact (H4 k K1 K2)].
      unfold known. destruct (Nat.eqb_spec e' (recv_epoch p)); [clear - L e0; Lia.lia|exact H3].
    - split; [clear - L; Lia.lia|]. intros _. subst e'. destruct (N.lt_ge_cases j (i_high p)) as [Q|Q]; auto. exfalso.
      destruct (N.lt_ge_cases (j + 80) (i_high p)) as [Q2|Q2].
      + destruct (R1 (recv_epoch p) j) as (k & K1 & K2); auto; [unfold known; rewrite Nat.eqb_refl; exact Q2|]. exact (H4 k K1 K2).
      + apply (H4 (i_high p - 1)); [clear - Q Q2; Lia.lia|]. apply R2. clear - Q. Lia.lia.
    - split; [clear - L; Lia.lia|]. intros ->. clear - L. Lia.lia. }
  unfold ideal_recv. destruct (mem (e, i) (i_got p)) eqn:ME; [apply mem_In in ME; contradiction|]. clear ME.
  destruct ((e <? recv_epoch p)%nat || ((e =? recv_epoch p)%nat && (i <? i_high p))) eqn:OLD.
  { cbn [snd]. split; [intros _|intros _; now destruct (en_plain en)]. intros (e' & j & H & B). apply NH in H as [H1 H2].
    apply orb_prop in OLD as [O|O].
    - apply Nat.ltb_lt in O. destruct B as [B|[B _]]; clear - H1 O B; Lia.lia.
    - apply andb_prop in O as [O1 O2]. apply Nat.eqb_eq in O1. apply N.ltb_lt in O2. destruct B as [B|[B1 B2]]; [clear - H1 O1 B; Lia.lia|].
      rewrite B1 in H2. specialize (H2 O1). clear - H2 B2 O2. Lia.lia. }
  apply orb_false_iff in OLD as [O1 O2]. apply Nat.ltb_ge in O1.
  destruct (Nat.eqb_spec e (recv_epoch p)) as [->|NE].
  - cbn [andb] in O2. apply N.ltb_ge in O2. destruct (N.ltb_spec 80 (i - i_high p)) as [G|G]; cbn [snd].
    + split; [discriminate|]. intros N. exfalso. apply N. exists (recv_epoch p), (i_high p). split.
      * repeat split; auto; [clear - F3 G; Lia.lia|]. intros k K H. fold p in H. apply PG in H as (_ & _ & H). unfold known in H. rewrite Nat.eqb_refl in H.
        clear - H K. Lia.lia.
      * right. split; auto. clear - G. Lia.lia.
    + split; auto. intros _ (e' & j & H & B). apply NH in H as [H1 H2]. destruct B as [B|[B1 B2]]; [clear - H1 B; Lia.lia|].
      specialize (H2 B1). clear - H2 B2 G. Lia.lia.
  - assert (TU : i_turn p = false /\ e = S (i_cur p)).
    { unfold recv_epoch in *. destruct (i_turn p) eqn:TU.
      - exfalso. specialize (F6 eq_refl). clear - F6 O1 NE. Lia.lia.
      - split; auto. destruct (Nat.eq_dec e (i_cur p)) as [->|]; [rewrite PA in F2; now destruct who|]. clear - F5 O1 NE n. Lia.lia. }
    destruct TU as [TU Ee].
    assert (RE : (e - 2)%nat = recv_epoch p) by (unfold recv_epoch; rewrite TU, Ee; clear; Lia.lia).
    rewrite RE in F4. destruct ((80 <? prev - i_high p) || (80 <? i)) eqn:G; cbn [snd].
    + split; [discriminate|]. intros N. exfalso. apply N. apply orb_prop in G as [G|G]; apply N.ltb_lt in G.
      * assert (RP : recv_epoch p <> O).
        { intros Z. rewrite Z in F4. rewrite (iv_zero _ _ _ _ _ _ _ _ I) in F4. clear - F4 G. Lia.lia. }
        exists (recv_epoch p), (i_high p). split; [|left; clear - O1 NE; Lia.lia].
        split; [clear - RP; Lia.lia|]. split; [|split].
        -- unfold recv_epoch. rewrite TU. rewrite TU in PA. unfold sender in *. rewrite Ee in F2. rewrite Nat.even_succ, <- Nat.negb_even in F2.
           destruct (i_cur p) as [|c]; [clear - CU; Lia.lia|]. cbn [pred]. rewrite Nat.even_succ, <- Nat.negb_even in PA.
           rewrite <- PA. now rewrite negb_involutive.
        -- rewrite <- F4. clear - G. Lia.lia.
        -- intros k K H. fold p in H. apply PG in H as (_ & _ & H). unfold known in H. rewrite Nat.eqb_refl in H. clear - H K. Lia.lia.
      * exists e, 0. split; [|right; split; auto]. split; [auto|]. split; [auto|]. split; [clear - F3 G; Lia.lia|].
        intros k K H. fold p in H. apply PG in H as (_ & H & _). clear - H O1 NE. Lia.lia.
    + apply orb_false_iff in G as [G1 G2]. apply N.ltb_ge in G1, G2. split; auto. intros _ (e' & j & H & B).
      pose proof (NH _ _ H) as [H1 H2]. destruct H as (_ & H3 & H4 & _). destruct B as [B|[B1 B2]]; [|clear - B2 G2; Lia.lia].
      destruct (parity e' e) as [P1 P2]; [congruence|].
      assert (e' = recv_epoch p) as -> by (clear - H1 B P2 RE; Lia.lia).
      specialize (H2 eq_refl). rewrite <- F4 in H4. clear - H2 H4 G1. Lia.lia.
Qed.

(** ** Executions *)

Lemma gap_run w0 evs : (forall evs1 evs2, evs = evs1 ++ evs2 -> inv (fst (run w0 evs1))) ->
  dense (w_log w0) -> (forall who, runs (w_log w0) who (w_i w0 who)) ->
  dense (w_log (fst (run w0 evs))) /\ forall who, runs (w_log (fst (run w0 evs))) who (w_i (fst (run w0 evs)) who).
Proof.
  intros I D R. revert I. induction evs as [|ev evs IH] using rev_ind; intros I; [split; assumption|].
  rewrite run_app, run_one. destruct IH as [A B].
  { intros evs1 evs2 ->. apply (I evs1 (evs2 ++ [ev])). now rewrite app_assoc. }
  apply gap_step; auto. apply (I evs [ev]). reflexivity.
Qed.

Lemma run_good w0 evs1 ev evs2 : Forall good (snd (run w0 (evs1 ++ ev :: evs2))) -> good (snd (step (fst (run w0 evs1)) ev)).
Proof.
  revert w0. induction evs1 as [|x l IH]; intros w0 H.
  - cbn [app RatchetConvModel.run fst] in *. destruct (step w0 ev) as [w1 r]. destruct (run w1 evs2). cbn [snd] in *. now inversion H.
  - cbn [app RatchetConvModel.run] in *. destruct (step w0 x) as [w1 r]. specialize (IH w1).
    destruct (run w1 (l ++ ev :: evs2)) as [w2 rs]. destruct (run w1 l) as [w3 rs']. cbn [fst snd] in *. inversion H; subst. auto.
Qed.

Lemma start_gap ma mb : dense [] /\ forall who, runs [] who (w_i (start (start_alice hmac base xs sk ma mb) (start_bob hmac xs sk ma mb)) who).
Proof.
  split.
  - intros e i H. exfalso. unfold cnt in H. cbn in H. clear - H. Lia.lia.
  - assert (K : forall p e, i_high p = 0 -> known [] p e = 0) by (intros p e H; unfold known; destruct (Nat.eqb _ _); auto).
    intros [|]; cbn [start w_i]; (split; [intros e j _ _ H; exfalso; rewrite K in H by reflexivity; clear - H; Lia.lia|cbn; discriminate]).
Qed.
End Gap.
