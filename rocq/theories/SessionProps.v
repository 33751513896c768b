(** C10 to C14: the transport session. *)
From Verif Require Import Base XdrModel XdrProofs SessionModel SessionProofs.
Local Open Scope N_scope.

(** What is assumed of the cryptographic library. *)
Definition box_law (seal : bytes -> bytes -> bytes -> bytes) (unseal : bytes -> bytes -> bytes -> option bytes) : Prop :=
  (forall k n m, unseal k n (seal k n m) = Some m) /\
  (forall k n m, length (seal k n m) = (length m + 16)%nat).
Definition kem_law (keypair : bytes -> bytes -> Prop) (encap : bytes -> bytes -> bytes * bytes)
    (decap : bytes -> bytes -> option bytes) : Prop :=
  (forall coins pk sk, keypair pk sk -> decap sk (fst (encap coins pk)) = Some (snd (encap coins pk))) /\
  (forall coins pk, length (fst (encap coins pk)) = 1047%nat).
Definition mac_law (hmac : bytes -> bytes -> bytes) : Prop := forall k m, length (hmac k m) = 32%nat.

(** * C10 *)

Lemma firstn_halves (k : bytes) : firstn 32 k ++ firstn 32 (skipn 32 k) = firstn 64 k.
Proof.
  rewrite <- (firstn_skipn 32 k) at 3. rewrite firstn_app, firstn_firstn.
  change (Nat.min 64 32) with 32%nat. f_equal.
  destruct (Nat.le_gt_cases 32 (length k)) as [H|H].
  - rewrite firstn_length. now replace (64 - Nat.min 32 (length k))%nat with 32%nat by lia.
  - rewrite skipn_all2 by lia. now rewrite !firstn_nil.
Qed.

(** In every undisturbed run both ends succeed, all bytes sent are read, the keys
    are crossed over, the counters agree in both directions, and the responder
    knows the initiator's public key.  The keys of the two directions are the two
    halves of one SHA-512 value, so they are independent of each other. *)
Theorem C10_key_exchange :
  forall seal unseal (keypair : bytes -> bytes -> Prop) encap decap hmac sha512,
  box_law seal unseal -> kem_law keypair encap decap -> mac_law hmac ->
  forall max_i max_r pk_i sk_i pk_r sk_r e_pk e_sk epk esk coins1 coins2 coins3 coins4,
  1234 <= max_i -> 1234 <= max_r ->
  keypair pk_r sk_r -> keypair pk_i sk_i -> keypair e_pk e_sk -> keypair epk esk ->
  length pk_i = 1218%nat -> length e_pk = 1218%nat -> length epk = 1218%nat ->
  exists s1 k1 o1 r1 rm o2 s2 im o3 r2 rk_r wk_r id o4 s3 rk_i wk_i,
    initiate1 seal encap (chan0 max_i) pk_r e_pk coins1 = (s1, Ok (k1, o1)) /\
    respond1 seal unseal encap decap hmac (chan0 max_r) sk_r epk coins2 o1 = (r1, Ok (rm, o2, [])) /\
    initiate2 seal unseal encap decap hmac s1 pk_i e_pk e_sk k1 coins3 o2 = (s2, Ok (im, o3, [])) /\
    respond2 seal unseal encap decap hmac sha512 r1 pk_r esk coins4 rm o3 = (r2, Ok (rk_r, wk_r, id, o4, [])) /\
    initiate3 unseal decap hmac sha512 s2 sk_i pk_r k1 im o4 = (s3, Ok (rk_i, wk_i, [])) /\
    rk_i = wk_r /\ wk_i = rk_r /\ id = pk_i /\
    (exists secret, rk_i ++ wk_i = firstn 64 (sha512 secret)) /\
    wseq s3 = rseq r2 /\ rseq s3 = wseq r2 /\ maxsize s3 = max_i /\ maxsize r2 = max_r.
Proof.
  intros seal unseal keypair encap decap hmac sha512 [B1 B2] [K1 K2] M
    max_i max_r pk_i sk_i pk_r sk_r e_pk e_sk epk esk coins1 coins2 coins3 coins4
    Hmi Hmr Kr Ki Ke Kre Li Le Lre.
  do 17 eexists.
  split; [unshelve (eapply run1; eassumption); assumption|].
  split; [add_nil;
          unshelve (eapply run2; eassumption); assumption|].
  split; [add_nil;
          unshelve (eapply run3; eassumption); assumption|].
  split; [add_nil;
          unshelve (eapply run4; eassumption); assumption|].
  split; [add_nil;
          unshelve (eapply run5; eassumption); assumption|].
  do 3 (split; [reflexivity|]). split; [|repeat split].
  eexists. apply firstn_halves.
Qed.
Print Assumptions C10_key_exchange.

(** What a run that succeeds has received and checked, whatever the other side or
    an attacker sent.  [frames max stream boxes rest]: the stream starts with these
    boxes, each in one frame. *)
Fixpoint frames (max : N) (stream : bytes) (boxes : list bytes) (rest : bytes) : Prop :=
  match boxes with
  | [] => stream = rest
  | b :: bs => exists more, dec xopaque max stream = Some (b, more) /\ frames max more bs rest
  end.
Fixpoint nth_nonce (n : nat) : bytes := match n with O => repeat 0 24 | S n' => inc_seq (nth_nonce n') end.

Lemma read_key_ok unseal s key stream s' data rest : read_key unseal s key stream = (s', Ok (data, rest)) ->
  exists b, dec xopaque (maxsize s) stream = Some (b, rest) /\ unseal key (rseq s) b = Some data /\
    s' = mkChan (wseq s) (inc_seq (rseq s)) (maxsize s).
Proof.
  unfold read_key. destruct (dec xopaque (maxsize s) stream) as [[b r]|]; [|discriminate].
  destruct (unseal key (rseq s) b) eqn:U; [|discriminate]. intros [= <- <- <-]. eauto.
Qed.
Lemma write_key_ok seal s key data s' out : write_key seal s key data = (s', Ok out) ->
  rseq s' = rseq s /\ wseq s' = inc_seq (wseq s) /\ maxsize s' = maxsize s /\ out = enc xopaque (seal key (wseq s) data).
Proof. unfold write_key. destruct (_ <? _); [discriminate|]. now intros [= <- <-]. Qed.
Lemma recv_cipher_ok unseal decap s sk ek stream s' k rest :
  recv_cipher unseal decap s sk (Some ek) stream = (s', Ok (k, rest)) ->
  exists b c, dec xopaque (maxsize s) stream = Some (b, rest) /\ unseal ek (rseq s) b = Some c /\
    length c = N.to_nat 1047 /\ decap sk c = Some k /\ s' = mkChan (wseq s) (inc_seq (rseq s)) (maxsize s).
Proof.
  unfold recv_cipher. destruct (read_key unseal s ek stream) as [s1 [[x r]|e|]] eqn:R; try discriminate.
  destruct (N.of_nat (length x) =? 1047) eqn:L; [|discriminate].
  destruct (decap sk x) eqn:D; [|discriminate]. intros [= <- <- <-].
  apply read_key_ok in R as (b & R1 & R2 & R3). apply N.eqb_eq in L.
  exists b, x. repeat split; auto. lia.
Qed.
Lemma recv_identity_ok unseal s ek stream s' pk rest :
  recv_identity unseal s ek stream = (s', Ok (pk, rest)) ->
  exists b, dec xopaque (maxsize s) stream = Some (b, rest) /\ unseal ek (rseq s) b = Some pk /\
    length pk = N.to_nat 1218 /\ s' = mkChan (wseq s) (inc_seq (rseq s)) (maxsize s).
Proof.
  unfold recv_identity, bind. destruct (read_key unseal s ek stream) as [s1 [[x r]|e|]] eqn:R; try discriminate.
  cbn [fst]. destruct (N.of_nat (length x) =? 1218) eqn:L; [|discriminate]. intros [= <- <- <-].
  apply read_key_ok in R as (b & R1 & R2 & R3). apply N.eqb_eq in L. exists b. repeat split; auto. lia.
Qed.
Lemma recv_proof_ok unseal hmac s mk ek parts stream s' d rest :
  recv_proof unseal hmac s mk ek parts stream = (s', Ok (d, rest)) ->
  exists b, dec xopaque (maxsize s) stream = Some (b, rest) /\ unseal ek (rseq s) b = Some (hmac mk (concat parts)) /\
    d = hmac mk (concat parts) /\ s' = mkChan (wseq s) (inc_seq (rseq s)) (maxsize s).
Proof.
  unfold recv_proof, bind. destruct (read_key unseal s ek stream) as [s1 [[x r]|e|]] eqn:R; try discriminate.
  cbn [fst snd]. destruct (negb _); [discriminate|].
  destruct (eqb_spec (hmac mk (concat parts)) x) as [<-|]; [|discriminate]. intros [= <- <- <-].
  apply read_key_ok in R as (b & R1 & R2 & R3). exists b. auto.
Qed.

(** The initiator: the boxes it read, in order, hold under the nonces 0 to 4 the
    ciphertext of k2, the server's ephemeral key, the server's proof that it knows
    k1, the ciphertext of k4 and the server's proof that it knows k3 and has seen
    the client's proof; the session keys come from all four shared keys. *)
Theorem C10_initiator_checks :
  forall seal unseal encap decap hmac sha512 max server_pk our_pk our_sk e_pk e_sk coins1 coins3
    s1 k1 o1 stream2 s2 m o3 rest2 stream3 s3 rk wk rest3,
  initiate1 seal encap (chan0 max) server_pk e_pk coins1 = (s1, Ok (k1, o1)) ->
  initiate2 seal unseal encap decap hmac s1 our_pk e_pk e_sk k1 coins3 stream2 = (s2, Ok (m, o3, rest2)) ->
  initiate3 unseal decap hmac sha512 s2 our_sk server_pk k1 m stream3 = (s3, Ok (rk, wk, rest3)) ->
  exists b0 b1 b2 b3 b4 c2 k2 their_e c4 k4,
    let k3 := snd (encap coins3 their_e) in
    let sp := hmac k1 (e_pk ++ their_e) in
    let cp := hmac k2 (sp ++ our_pk) in
    k1 = snd (encap coins1 server_pk) /\
    frames max stream2 [b0; b1; b2] rest2 /\ frames max stream3 [b3; b4] rest3 /\
    unseal k1 (nth_nonce 0) b0 = Some c2 /\ decap e_sk c2 = Some k2 /\
    unseal k2 (nth_nonce 1) b1 = Some their_e /\ length their_e = N.to_nat 1218 /\
    unseal k2 (nth_nonce 2) b2 = Some sp /\
    unseal k3 (nth_nonce 3) b3 = Some c4 /\ decap our_sk c4 = Some k4 /\
    unseal k4 (nth_nonce 4) b4 = Some (hmac k3 (cp ++ server_pk)) /\
    rk ++ wk = firstn 64 (sha512 (k1 ++ k2 ++ k3 ++ k4)) /\
    o1 = enc (xfixed 1047) (fst (encap coins1 server_pk)) ++ enc xopaque (seal k1 (nth_nonce 0) e_pk) /\
    o3 = enc xopaque (seal k2 (nth_nonce 1) (fst (encap coins3 their_e))) ++
         enc xopaque (seal k3 (nth_nonce 2) our_pk) ++ enc xopaque (seal k3 (nth_nonce 3) cp).
Proof.
  intros seal unseal encap decap hmac sha512 max server_pk our_pk our_sk e_pk e_sk coins1 coins3
    s1 k1 o1 stream2 s2 m o3 rest2 stream3 s3 rk wk rest3 H1 H2 H3.
  unfold initiate1, gen_and_send in H1. destruct (encap coins1 server_pk) as [c1 kk1] eqn:E1.
  cbn [bind] in H1. destruct (write_key seal (chan0 max) kk1 e_pk) as [sa [oa|?|]] eqn:W1; try discriminate H1.
  cbn [bind] in H1. injection H1 as <- <- <-. apply write_key_ok in W1 as (A1 & A2 & A3 & ->).
  unfold initiate2 in H2.
  destruct (recv_cipher unseal decap sa e_sk (Some kk1) stream2) as [sb [[k2 st]|?|]] eqn:R1; try discriminate H2.
  cbn [bind] in H2. apply recv_cipher_ok in R1 as (b0 & c2 & F0 & U0 & _ & D2 & ->).
  destruct (recv_identity unseal _ k2 st) as [sc [[their_e st1]|?|]] eqn:R2; try discriminate H2.
  cbn [bind] in H2. apply recv_identity_ok in R2 as (b1 & F1 & U1 & L1 & ->).
  destruct (recv_proof unseal hmac _ kk1 k2 [e_pk; their_e] st1) as [sd [[sp st2]|?|]] eqn:R3; try discriminate H2.
  cbn [bind] in H2. apply recv_proof_ok in R3 as (b2 & F2 & U2 & -> & ->).
  unfold gen_and_send in H2. destruct (encap coins3 their_e) as [c3 k3] eqn:E3.
  destruct (write_key seal _ k2 c3) as [se [oc|?|]] eqn:W2; try discriminate H2. cbn [bind] in H2.
  apply write_key_ok in W2 as (B1 & B2 & B3 & ->).
  destruct (write_key seal se k3 our_pk) as [sf [od|?|]] eqn:W3; try discriminate H2. cbn [bind] in H2.
  apply write_key_ok in W3 as (C1 & C2 & C3 & ->).
  unfold send_proof in H2. destruct (write_key seal sf k3 _) as [sg [oe|?|]] eqn:W4; try discriminate H2.
  cbn [bind] in H2. injection H2 as <- <- <- <-. apply write_key_ok in W4 as (D3 & D4 & D5 & ->).
  unfold initiate3 in H3. cbn [i_k2 i_k3 i_cp] in H3.
  destruct (recv_cipher unseal decap sg our_sk (Some k3) stream3) as [sh [[k4 st3]|?|]] eqn:R4; try discriminate H3.
  cbn [bind] in H3. apply recv_cipher_ok in R4 as (b3 & c4 & F3 & U3 & _ & Dc4 & ->).
  destruct (recv_proof unseal hmac _ k3 k4 _ st3) as [si [[x st4]|?|]] eqn:R5; try discriminate H3.
  cbn [bind] in H3. apply recv_proof_ok in R5 as (b4 & F4 & U4 & -> & ->).
  unfold derive_keys in H3. injection H3 as <- <- <- <-.
  exists b0, b1, b2, b3, b4, c2, k2, their_e, c4, k4. cbv zeta.
  cbn [rseq wseq maxsize chan0] in *.
  repeat rewrite ?D3, ?D4, ?D5, ?C1, ?C2, ?C3, ?B1, ?B2, ?B3, ?A1, ?A2, ?A3 in *.
  cbn [concat] in *. rewrite ?app_nil_r in *. rewrite E3. cbn [snd fst].
  repeat match goal with |- _ /\ _ => split end; auto.
  - exists st. split; [exact F0|]. exists st1. split; [exact F1|]. exists st2. split; [exact F2|reflexivity].
  - exists st3. split; [exact F3|]. exists st4. split; [exact F4|reflexivity].
  - apply firstn_halves.
Qed.
Print Assumptions C10_initiator_checks.

(** The responder: likewise; the client's public key counts only with a proof that
    its owner knows k2 and has seen the server's proof. *)
Theorem C10_responder_checks :
  forall seal unseal encap decap hmac sha512 max our_pk our_sk epk esk coins2 coins4
    stream1 s1 m o2 rest1 stream2 s2 rk wk id o4 rest2,
  respond1 seal unseal encap decap hmac (chan0 max) our_sk epk coins2 stream1 = (s1, Ok (m, o2, rest1)) ->
  respond2 seal unseal encap decap hmac sha512 s1 our_pk esk coins4 m stream2 = (s2, Ok (rk, wk, id, o4, rest2)) ->
  exists c1 k1 after b0 b1 b2 b3 their_e c3 k3,
    let k2 := snd (encap coins2 their_e) in
    let k4 := snd (encap coins4 id) in
    let sp := hmac k1 (their_e ++ epk) in
    let cp := hmac k2 (sp ++ id) in
    dec (xfixed 1047) 0 stream1 = Some (c1, after) /\ decap our_sk c1 = Some k1 /\
    frames max after [b0] rest1 /\ frames max stream2 [b1; b2; b3] rest2 /\
    unseal k1 (nth_nonce 0) b0 = Some their_e /\ length their_e = N.to_nat 1218 /\
    unseal k2 (nth_nonce 1) b1 = Some c3 /\ decap esk c3 = Some k3 /\
    unseal k3 (nth_nonce 2) b2 = Some id /\ length id = N.to_nat 1218 /\
    unseal k3 (nth_nonce 3) b3 = Some cp /\
    wk ++ rk = firstn 64 (sha512 (k1 ++ k2 ++ k3 ++ k4)) /\
    o2 = enc xopaque (seal k1 (nth_nonce 0) (fst (encap coins2 their_e))) ++
         enc xopaque (seal k2 (nth_nonce 1) epk) ++ enc xopaque (seal k2 (nth_nonce 2) sp) /\
    o4 = enc xopaque (seal k3 (nth_nonce 3) (fst (encap coins4 id))) ++
         enc xopaque (seal k4 (nth_nonce 4) (hmac k3 (cp ++ our_pk))).
Proof.
  intros seal unseal encap decap hmac sha512 max our_pk our_sk epk esk coins2 coins4
    stream1 s1 m o2 rest1 stream2 s2 rk wk id o4 rest2 H1 H2.
  unfold respond1, recv_cipher in H1.
  destruct (dec (xfixed 1047) 0 stream1) as [[c1 after]|] eqn:F0; [|discriminate H1].
  destruct (decap our_sk c1) as [k1|] eqn:Dc1; [|discriminate H1]. cbn [bind] in H1.
  destruct (recv_identity unseal _ k1 after) as [sb [[their_e st]|?|]] eqn:R1; try discriminate H1.
  cbn [bind] in H1. apply recv_identity_ok in R1 as (b0 & F1 & U0 & L0 & ->).
  unfold gen_and_send in H1. destruct (encap coins2 their_e) as [c2 k2] eqn:E2.
  destruct (write_key seal _ k1 c2) as [sc [oa|?|]] eqn:W1; try discriminate H1. cbn [bind] in H1.
  apply write_key_ok in W1 as (A1 & A2 & A3 & ->).
  destruct (write_key seal sc k2 epk) as [sd [ob|?|]] eqn:W2; try discriminate H1. cbn [bind] in H1.
  apply write_key_ok in W2 as (B1 & B2 & B3 & ->).
  unfold send_proof in H1. destruct (write_key seal sd k2 _) as [se [oc|?|]] eqn:W3; try discriminate H1.
  cbn [bind] in H1. injection H1 as <- <- <- <-. apply write_key_ok in W3 as (C1 & C2 & C3 & ->).
  unfold respond2 in H2. cbn [r_k1 r_k2 r_sp] in H2.
  destruct (recv_cipher unseal decap se esk (Some k2) stream2) as [sf [[k3 st1]|?|]] eqn:R2; try discriminate H2.
  cbn [bind] in H2. apply recv_cipher_ok in R2 as (b1 & c3 & F2 & U1 & _ & Dc3 & ->).
  destruct (recv_identity unseal _ k3 st1) as [sg [[id0 st2]|?|]] eqn:R3; try discriminate H2.
  cbn [bind] in H2. apply recv_identity_ok in R3 as (b2 & F3 & U2 & L2 & ->).
  destruct (recv_proof unseal hmac _ k2 k3 _ st2) as [sh [[cp st3]|?|]] eqn:R4; try discriminate H2.
  cbn [bind] in H2. apply recv_proof_ok in R4 as (b3 & F4 & U3 & -> & ->).
  unfold gen_and_send in H2. destruct (encap coins4 id0) as [c4 k4] eqn:E4.
  destruct (write_key seal _ k3 c4) as [si [od|?|]] eqn:W4; try discriminate H2. cbn [bind] in H2.
  apply write_key_ok in W4 as (D1 & D2 & D3 & ->).
  unfold send_proof in H2. destruct (write_key seal si k4 _) as [sj [oe|?|]] eqn:W5; try discriminate H2.
  cbn [bind] in H2. unfold derive_keys in H2. injection H2 as <- <- <- <- <- <-.
  apply write_key_ok in W5 as (G1 & G2 & G3 & ->).
  exists c1, k1, after, b0, b1, b2, b3, their_e, c3, k3. cbv zeta.
  cbn [rseq wseq maxsize chan0] in *.
  repeat rewrite ?G1, ?G2, ?G3, ?D1, ?D2, ?D3, ?C1, ?C2, ?C3, ?B1, ?B2, ?B3, ?A1, ?A2, ?A3 in *.
  cbn [concat] in *. rewrite ?app_nil_r in *. rewrite E2, E4. cbn [snd fst].
  repeat match goal with |- _ /\ _ => split end; auto.
  - exists st. now split.
  - exists st1. split; [exact F2|]. exists st2. split; [exact F3|]. exists st3. split; [exact F4|reflexivity].
  - apply firstn_halves.
Qed.
Print Assumptions C10_responder_checks.

(** The laws can be met: public and private key are the same, the ciphertext is
    the coins and the shared key is both. *)
Definition toy_keypair (pk sk : bytes) : Prop := pk = sk.
Definition toy_encap (coins pk : bytes) : bytes * bytes :=
  let c := firstn 1047 (coins ++ repeat 0 (N.to_nat 1047)) in (c, firstn 4 pk ++ firstn 4 c).
Definition toy_decap (sk c : bytes) : option bytes := Some (firstn 4 sk ++ firstn 4 c).
Definition toy_hmac (k m : bytes) : bytes := firstn 32 (firstn 8 k ++ m ++ repeat 0 32).
Example toy_kem_law : kem_law toy_keypair toy_encap toy_decap /\ mac_law toy_hmac.
Proof.
  split; [split|].
  - now intros coins pk sk ->.
  - intros coins pk. cbn [toy_encap fst]. unfold toy_encap. cbn [fst].
    rewrite firstn_length, app_length, repeat_length. lia.
  - intros k m. unfold toy_hmac. rewrite firstn_length, !app_length, repeat_length. lia.
Qed.

(** * C11 *)

(** Undisturbed, everything written is read, in order. *)
Theorem C11_delivery : forall seal unseal, box_law seal unseal ->
  forall key max_w max_r i w r msgs,
  max_w <= max_r -> Forall (fits max_w) msgs ->
  Forall (fun m => N.of_nat (length m) <= 2 ^ 31 - 20) msgs ->
  read_until_error unseal (length msgs) (mkChan w (nonce_at i) max_r) key
    (wire (snd (write_all seal (mkChan (nonce_at i) r max_w) key msgs))) = msgs.
Proof.
  intros seal unseal [B1 B2] key max_w max_r i w r msgs Hm Hf Hl.
  exact (deliver_bytes seal unseal B1 B2 key max_w max_r i w r msgs Hm Hf Hl).
Qed.
Print Assumptions C11_delivery.

(** Whatever bytes arrive instead, as long as they contain no box that opens under
    the key without having been sent under it, what is read before the first error
    is a prefix of the messages given to Write, all of which Write accepted. *)
Theorem C11_prefix : forall unseal key max_w max_r i w msgs stream n,
  i + N.of_nat (length msgs) < 2 ^ 64 ->
  no_forgery unseal key (sent max_w i msgs) (boxes n max_r stream) ->
  exists later,
    msgs = read_until_error unseal n (mkChan w (nonce_at i) max_r) key stream ++ later /\
    Forall (fits max_w) (read_until_error unseal n (mkChan w (nonce_at i) max_r) key stream).
Proof.
  intros unseal key max_w max_r i w msgs stream n Hl Hno.
  exact (reads_prefix_bytes unseal key max_w max_r i w msgs stream n Hl Hno).
Qed.
Print Assumptions C11_prefix.

(** A box of the other direction (another key) is not accepted. *)
Theorem C11_no_reflection : forall seal unseal, box_law seal unseal ->
  (forall k k' n n' m, k <> k' -> unseal k n (seal k' n' m) = None) ->
  forall s read_key write_key j m rest, read_key <> write_key -> fits (maxsize s) m ->
  N.of_nat (length m) <= 2 ^ 31 - 20 ->
  snd (SessionModel.read_key unseal s read_key (frame seal write_key j m ++ rest)) = Err ErrDecrypt.
Proof.
  intros seal unseal [B1 B2] Hk s rk wk j m rest Hne Hf Hl.
  exact (other_key_fails seal unseal B1 B2 s rk wk j m rest Hk Hne Hf Hl).
Qed.
Print Assumptions C11_no_reflection.

(** A toy box: key, nonce, message and 16 bytes, and the checks. *)
Definition toy_seal (k n m : bytes) : bytes := m ++ firstn 16 (k ++ n ++ repeat 0 16).
Definition toy_unseal (k n b : bytes) : option bytes :=
  let l := (length b - 16)%nat in
  if (16 <=? N.of_nat (length b)) && eqb (skipn l b) (firstn 16 (k ++ n ++ repeat 0 16)) then Some (firstn l b) else None.
Lemma toy_tag_length k n : length (firstn 16 (k ++ n ++ repeat 0 16)) = 16%nat.
Proof. rewrite firstn_length, !app_length, repeat_length. lia. Qed.
Example toy_box_law : box_law toy_seal toy_unseal.
Proof.
  split.
  - intros k n m. unfold toy_unseal, toy_seal. cbv zeta.
    rewrite app_length, toy_tag_length.
    replace (length m + 16 - 16)%nat with (length m) by lia.
    rewrite skipn_app_exact, firstn_app_exact, eqb_refl.
    destruct (N.leb_spec 16 (N.of_nat (length m + 16))); [reflexivity|lia].
  - intros k n m. unfold toy_seal. now rewrite app_length, toy_tag_length.
Qed.
(** Three messages, the middle one lost by an attacker: only the first arrives.
    Two kept in order: both arrive. *)
Example toy_session :
  let s := mkChan (nonce_at 4) (nonce_at 4) 100 in
  let f i m := frame toy_seal [9] i m in
  wire (snd (write_all toy_seal s [9] [bs "a"; bs "bb"; bs "c"])) = f 4 (bs "a") ++ f 5 (bs "bb") ++ f 6 (bs "c") /\
  read_until_error toy_unseal 5 s [9] (f 4 (bs "a") ++ f 6 (bs "c")) = [bs "a"] /\
  read_until_error toy_unseal 5 s [9] (f 4 (bs "a") ++ f 5 (bs "bb") ++ f 4 (bs "a")) = [bs "a"; bs "bb"].
Proof. split; [|split]; vm_compute; reflexivity. Qed.
Example toy_no_forgery :
  no_forgery toy_unseal [9] (sent 100 4 [bs "a"; bs "bb"]) (boxes 1 100 []).
Proof. intros b n m [] . Qed.

(** * C12 *)

(** Incrementing adds one to the eight byte little endian counter modulo 2^64 and
    leaves the other sixteen bytes alone; so the first 2^64 nonces are pairwise
    different and the one after them is the first again. *)
Theorem C12_nonces : forall seq, length seq = 24%nat -> Forall is_byte seq ->
  (forall n, of_le (firstn 8 (iter_inc n seq)) = (of_le (firstn 8 seq) + N.of_nat n) mod 2 ^ 64 /\
             skipn 8 (iter_inc n seq) = skipn 8 seq) /\
  (forall i j, N.of_nat i < 2 ^ 64 -> N.of_nat j < 2 ^ 64 -> iter_inc i seq = iter_inc j seq -> i = j) /\
  (forall n, N.of_nat n = 2 ^ 64 -> iter_inc n seq = seq).
Proof. exact nonces. Qed.
Print Assumptions C12_nonces.
Example nonce_case : inc_seq ([255;255;0;0;0;0;0;0] ++ repeat 7 16) = [0;0;1;0;0;0;0;0] ++ repeat 7 16 /\
  inc_seq (repeat 255 8 ++ repeat 7 16) = repeat 0 8 ++ repeat 7 16.
Proof. split; reflexivity. Qed.

(** * C13 *)

(** The boxes sealed by both sides in an undisturbed run, as (key, counter,
    message); the bytes sent are exactly these. *)
Definition sealed_frames (seal : bytes -> bytes -> bytes -> bytes) (l : list (bytes * N * bytes)) : bytes :=
  concat (map (fun x => frame seal (fst (fst x)) (snd (fst x)) (snd x)) l).

Theorem C13_reuse_refuted :
  forall seal unseal (keypair : bytes -> bytes -> Prop) encap decap hmac sha512,
  box_law seal unseal -> kem_law keypair encap decap -> mac_law hmac ->
  forall max_i max_r pk_i sk_i pk_r sk_r e_pk e_sk epk esk coins1 coins2 coins3 coins4,
  1234 <= max_i -> 1234 <= max_r ->
  keypair pk_r sk_r -> keypair pk_i sk_i -> keypair e_pk e_sk -> keypair epk esk ->
  length pk_i = 1218%nat -> length e_pk = 1218%nat -> length epk = 1218%nat ->
  exists c1 s1 k1 o1 r1 rm o2 s2 im o3 r2 keys o4 sealed_i1 sealed_i2 sealed_r1 sealed_r2,
    initiate1 seal encap (chan0 max_i) pk_r e_pk coins1 = (s1, Ok (k1, o1)) /\
    respond1 seal unseal encap decap hmac (chan0 max_r) sk_r epk coins2 o1 = (r1, Ok (rm, o2, [])) /\
    initiate2 seal unseal encap decap hmac s1 pk_i e_pk e_sk k1 coins3 o2 = (s2, Ok (im, o3, [])) /\
    respond2 seal unseal encap decap hmac sha512 r1 pk_r esk coins4 rm o3 = (r2, Ok (keys, o4, [])) /\
    o1 = enc_fixed c1 ++ sealed_frames seal sealed_i1 /\ o2 = sealed_frames seal sealed_r1 /\
    o3 = sealed_frames seal sealed_i2 /\ o4 = sealed_frames seal sealed_r2 /\
    exists ka kb kc na nb nc m1 m2 m3 m4 m5 m6,
      In (ka, na, m1) sealed_i1 /\ In (ka, na, m2) sealed_r1 /\ m1 <> m2 /\
      In (kb, nb, m3) sealed_i2 /\ In (kb, nb, m4) sealed_r1 /\ m3 <> m4 /\
      In (kc, nc, m5) sealed_i2 /\ In (kc, nc, m6) sealed_r2 /\ m5 <> m6.
Proof. exact reuse. Qed.
Print Assumptions C13_reuse_refuted.

(** These three are the only ones if the four step keys differ: apart from the
    counters 0 under k1, 1 under k2 and 3 under k3, no pair is used by both sides,
    and no side uses a pair twice. *)
Theorem C13_only_three : forall k1 k2 k3 k4 : bytes, NoDup [k1; k2; k3; k4] ->
  let used_i := [(k1, 0); (k2, 1); (k3, 2); (k3, 3)] in
  let used_r := [(k1, 0); (k2, 1); (k2, 2); (k3, 3); (k4, 4)] in
  NoDup used_i /\ NoDup used_r /\
  forall p, In p used_i -> In p used_r -> p = (k1, 0) \/ p = (k2, 1) \/ p = (k3, 3).
Proof. exact only_three. Qed.
Print Assumptions C13_only_three.

Example only_three_case : NoDup [bs "k1"; bs "k2"; bs "k3"; bs "k4"].
Proof. repeat (constructor; [cbn; intuition discriminate|]). constructor. Qed.

(** * C14 *)

(** Write accepts exactly the messages whose box fits; the other side with the
    same limit reads every accepted message. *)
Theorem C14_boundary : forall seal unseal, box_law seal unseal ->
  forall key max i w r m, max <= 2 ^ 31 - 4 ->
  (N.of_nat (length m) + 16 <= max <->
     exists out s', write_key seal (mkChan (nonce_at i) r max) key m = (s', Ok out)) /\
  (N.of_nat (length m) + 16 <= max ->
     read_key unseal (mkChan w (nonce_at i) max) key (wire [snd (write_key seal (mkChan (nonce_at i) r max) key m)])
     = (mkChan w (nonce_at (i + 1)) max, Ok (m, []))).
Proof. exact boundary. Qed.
Print Assumptions C14_boundary.

(** A refused oversized Write puts the two ends out of step: nothing is sent, and
    the next accepted message can not be read. *)
Theorem C14_overflow_refuted : forall seal unseal, box_law seal unseal ->
  (forall k n n' m, n <> n' -> unseal k n (seal k n' m) = None) ->
  forall key max i w r big m, i + 1 < 2 ^ 64 -> max <= 2 ^ 31 - 4 ->
  max < N.of_nat (length big) + 16 -> N.of_nat (length m) + 16 <= max ->
  let '(s1, r1) := write_key seal (mkChan (nonce_at i) r max) key big in
  let '(s2, r2) := write_key seal s1 key m in
  r1 = Err ErrOverflow /\ (exists out, r2 = Ok out) /\
  snd (read_key unseal (mkChan w (nonce_at i) max) key (wire [r1; r2])) = Err ErrDecrypt.
Proof. exact overflow_desync. Qed.
Print Assumptions C14_overflow_refuted.
Example toy_overflow :
  let s := mkChan (nonce_at 4) (nonce_at 4) 20 in
  wire (snd (write_all toy_seal s [9] [bs "toolong"; bs "ok"])) = frame toy_seal [9] 5 (bs "ok") /\
  snd (read_key toy_unseal s [9] (frame toy_seal [9] 5 (bs "ok"))) = Err ErrDecrypt.
Proof. split; vm_compute; reflexivity. Qed.
