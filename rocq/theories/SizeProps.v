(** C41 and C57: what fits into a message of the transport. *)
From Verif Require Import Base HexModel XdrModel XdrProofs RpcModel RpcProofs CrpcModel CrpcProofs SessionModel SessionProofs SessionProps
  RatchetModel RatchetProofs AcctModel SrvModel SrvProofs SrvProps MailModel MailProofs SizeProofs WelcomeModel WelcomeProps SizeModel RatchetCases.
Local Open Scope N_scope.

(** * Lengths *)

Lemma len_cache ts tag to ct : len to = 32 -> len (cache_request ts tag to ct) = 64 + padded (len ct).
Proof.
  intros T. unfold cache_request. rewrite len_app, len_Message. cbn [enc Cache_codec xiso xpair fst snd Cache_To Cache_Payload xfixed].
  rewrite len_app, len_fixed, len_opaque, T. change (len cmd_cache) with 5. change (padded 5) with 8. change (padded 32) with 32. lia.
Qed.
Lemma len_proxy ts tag to p : len to = 32 -> len (proxy_request ts tag to p) = 64 + padded (len p).
Proof.
  intros T. unfold proxy_request. rewrite len_app, len_Message. cbn [enc Proxy_codec xiso xpair fst snd Proxy_To Proxy_Payload xfixed].
  rewrite len_app, len_fixed, len_opaque, T. change (len cmd_proxy) with 5. change (padded 5) with 8. change (padded 32) with 32. lia.
Qed.
Lemma len_push tag d : len (DiskMessage_From d) = 32 -> len (push_message tag d) = 68 + padded (len (DiskMessage_Payload d)).
Proof.
  intros T. unfold push_message. rewrite len_app, len_Message. cbn [enc Push_codec xiso xpair fst snd Push_From Push_Received Push_Payload xfixed xint64].
  rewrite !len_app, len_fixed, len_opaque, T, len_be. change (len cmd_push) with 4. change (padded 4) with 4. change (padded 32) with 32. lia.
Qed.
Lemma len_chunk off dg p : len dg = 32 -> len (payload_xdr (Ch (mkChunk off dg p))) = 44 + padded (len p).
Proof.
  intros T. cbn [payload_xdr enc Chunk_codec xiso xpair fst snd Chunk_Offset Chunk_Digest Chunk_Payload xfixed xuint64].
  rewrite !len_app, len_fixed, len_opaque, T, len_be. change (padded 32) with 32. lia.
Qed.
Lemma len_crpc now p comp : len (enc CRPC_codec (mkCRPC now (payload_command p) comp)) = 16 + padded (len (payload_command p)) + padded (len comp).
Proof.
  cbn [enc CRPC_codec xiso xpair fst snd CRPC_Timestamp CRPC_Command CRPC_Compression xint64].
  rewrite !len_app, !len_opaque, len_be. lia.
Qed.
Lemma padded_mono a b : a <= b -> padded a <= padded b.
Proof. intros H. rewrite !padded_spec. assert ((a + 3) / 4 <= (b + 3) / 4) by (apply N.div_le_mono; lia). lia. Qed.
Lemma padded_add a b : a mod 4 = 0 -> padded (a + b) = a + padded b.
Proof.
  intros H. rewrite !padded_spec. pose proof (N.div_mod a 4 ltac:(lia)) as D. rewrite H in D.
  replace (a + b + 3) with (b + 3 + (a / 4) * 4) by lia. rewrite N.div_add by lia. lia.
Qed.
Lemma padded_idem a : padded (padded a) = padded a.
Proof. rewrite <- (N.add_0_r (padded a)) at 1. rewrite padded_add by apply padded_mult. change (padded 0) with 0. lia. Qed.

(** The encrypted text is 120 bytes longer than the plain one. *)
Lemma len_encrypt hmac sha256 x25519 base seal unseal r priv hn mn msg ct :
  box_law seal unseal -> (forall x, length (base x) = 32%nat) -> length hn = 24%nat -> length mn = 24%nat ->
  snd (encrypt hmac sha256 x25519 base seal r priv hn mn msg) = Some ct -> len ct = 120 + len msg.
Proof.
  intros [_ B2] Hb Hh Hm E. unfold encrypt in E.
  destruct (if ratchet_flag r then _ else _) as [r1 ok]. destruct (negb ok); [discriminate|]. cbn [snd] in E. injection E as <-.
  unfold len. rewrite !app_length, !B2, Hh. unfold header_plain. rewrite !app_length, Hb, Hm. change (length (put_le32 _)) with 4%nat. change (length (put_le32 _)) with 4%nat. lia.
Qed.

(** * C41: a chunk and its size *)

(** The protocol adds 268 bytes to the padded data of a chunk that does not shrink,
    and at most four more to one that is compressed. *)
Theorem C41_size hmac sha256 x25519 base seal unseal deflate r priv hn mn now ts tag to off dg data b :
  box_law seal unseal -> (forall x, length (base x) = 32%nat) -> length hn = 24%nat -> length mn = 24%nat ->
  len to = 32 -> len dg = 32 ->
  crpc_request hmac sha256 x25519 base seal deflate r priv hn mn now ts tag to (Ch (mkChunk off dg data)) = Some b ->
  len b + 16 <= 272 + 4 * ((len data + 3) / 4) /\
  (len (payload_xdr (Ch (mkChunk off dg data))) < len (deflate (payload_xdr (Ch (mkChunk off dg data)))) ->
   len b + 16 = 268 + 4 * ((len data + 3) / 4)).
Proof.
  intros B Hb Hh Hm Ht Hd R. unfold crpc_request in R. destruct (snd (encrypt _ _ _ _ _ _ _ _ _ _)) as [ct|] eqn:E; [|discriminate].
  injection R as <-. apply (len_encrypt _ _ _ _ _ unseal) in E; auto. rewrite len_cache by auto. rewrite E.
  rewrite <- padded_spec. unfold crpc_plain, compress.
  destruct (Nat.ltb_spec (length (payload_xdr (Ch (mkChunk off dg data)))) (length (deflate (payload_xdr (Ch (mkChunk off dg data)))))) as [L|L].
  - rewrite len_app, len_crpc, len_chunk by auto. cbn [payload_command]. change (len (bs "chunk")) with 5. change (padded 5) with 8.
    change (len (@nil N)) with 0. change (padded 0) with 0.
    replace (120 + (16 + 8 + 0 + (44 + padded (len data)))) with (188 + padded (len data)) by lia.
    rewrite padded_add by reflexivity. rewrite padded_idem. lia.
  - rewrite len_app, len_crpc. cbn [payload_command]. change (len (bs "chunk")) with 5. change (padded 5) with 8.
    change (len (bs "zlib")) with 4. change (padded 4) with 4. split.
    + assert (X : len (deflate (payload_xdr (Ch (mkChunk off dg data)))) <= 44 + padded (len data)).
      { rewrite <- (len_chunk off dg data Hd). unfold len. lia. }
      apply padded_mono in X. rewrite padded_add in X by reflexivity. rewrite padded_idem in X.
      replace (120 + (16 + 8 + 4 + len (deflate (payload_xdr (Ch (mkChunk off dg data)))))) with (148 + len (deflate (payload_xdr (Ch (mkChunk off dg data))))) by lia.
      rewrite padded_add by reflexivity. lia.
    + intros K. unfold len in K. lia.
Qed.
Print Assumptions C41_size.

Definition write_ok (r : res SessionModel.error bytes) : Prop := exists w, r = Ok w.

Lemma write_iff seal unseal c key m : box_law seal unseal ->
  (write_ok (snd (write_key seal c key m)) <-> len m + 16 <= maxsize c) /\
  (~ write_ok (snd (write_key seal c key m)) -> snd (write_key seal c key m) = Err SessionModel.ErrOverflow).
Proof.
  intros [_ B2]. unfold write_key. cbv zeta. rewrite B2. unfold len, write_ok.
  destruct (N.ltb_spec (maxsize c) (N.of_nat (length m + 16))) as [L|L]; cbn [snd].
  - split; auto. split; [intros [w K]; discriminate|lia].
  - split; [|intros K; exfalso; apply K; eauto]. split; [lia|eauto].
Qed.

(** If the message size exceeds the padded chunk size by 276 bytes, every chunk can be
    sent to the server, and by the server to the recipient. *)
Theorem C41_chunk_fits hmac sha256 x25519 base seal unseal seal' unseal' deflate r priv hn mn now ts tag to off dg data ct from received tag' c key c' key' size :
  box_law seal unseal -> box_law seal' unseal' -> (forall x, length (base x) = 32%nat) -> length hn = 24%nat -> length mn = 24%nat ->
  len to = 32 -> len dg = 32 -> len from = 32 -> len data <= size ->
  4 * ((size + 3) / 4) + 276 <= maxsize c -> 4 * ((size + 3) / 4) + 276 <= maxsize c' ->
  snd (encrypt hmac sha256 x25519 base seal r priv hn mn (crpc_plain deflate now (Ch (mkChunk off dg data)))) = Some ct ->
  crpc_request hmac sha256 x25519 base seal deflate r priv hn mn now ts tag to (Ch (mkChunk off dg data)) = Some (cache_request ts tag to ct) /\
  write_ok (snd (write_key seal' c key (cache_request ts tag to ct))) /\
  write_ok (snd (write_key seal' c' key' (push_message tag' (mkDiskMessage from received ct false)))).
Proof.
  intros B B' Hb Hh Hm Ht Hd Hf Hs F F' E.
  assert (R : crpc_request hmac sha256 x25519 base seal deflate r priv hn mn now ts tag to (Ch (mkChunk off dg data)) = Some (cache_request ts tag to ct)).
  { unfold crpc_request. now rewrite E. }
  destruct (C41_size _ _ _ _ _ unseal _ _ _ _ _ _ _ _ _ _ _ _ _ B Hb Hh Hm Ht Hd R) as [S _].
  pose proof (padded_mono _ _ Hs) as P. rewrite !padded_spec in P. rewrite len_cache in S by auto.
  split; [exact R|]. split; apply (write_iff seal' unseal' _ _ _ B').
  - rewrite len_cache by auto. lia.
  - rewrite len_push by auto. cbn [DiskMessage_Payload]. lia.
Qed.
Print Assumptions C41_chunk_fits.

(** With any configuration that leaves the chunk size at most 262892, as the built in
    one does, chunks fit. *)
Theorem C41_settings hmac sha256 x25519 base seal unseal seal' unseal' deflate r priv hn mn now ts tag to off dg data ct from received tag' c key c' key' content s :
  load_sets content default_sets = Some s -> g_chunk s <= 262892 -> maxsize c = g_msg s -> maxsize c' = g_msg s ->
  box_law seal unseal -> box_law seal' unseal' -> (forall x, length (base x) = 32%nat) -> length hn = 24%nat -> length mn = 24%nat ->
  len to = 32 -> len dg = 32 -> len from = 32 -> len data <= g_chunk s ->
  snd (encrypt hmac sha256 x25519 base seal r priv hn mn (crpc_plain deflate now (Ch (mkChunk off dg data)))) = Some ct ->
  write_ok (snd (write_key seal' c key (cache_request ts tag to ct))) /\
  write_ok (snd (write_key seal' c' key' (push_message tag' (mkDiskMessage from received ct false)))).
Proof.
  intros L G Mc Mc' B B' Hb Hh Hm Ht Hd Hf Hs E. destruct (C44_settings _ _ L) as (M & _).
  assert (X : 4 * ((g_chunk s + 3) / 4) + 276 <= 263168).
  { assert ((g_chunk s + 3) / 4 <= (262892 + 3) / 4) by (apply N.div_le_mono; lia). change ((262892 + 3) / 4) with 65723 in *. lia. }
  apply (C41_chunk_fits hmac sha256 x25519 base seal unseal seal' unseal' deflate r priv hn mn now ts tag to off dg data ct from received tag' c key c' key' (g_chunk s)); auto; lia.
Qed.
Print Assumptions C41_settings.

(** Above 262900 and up to the message size, the client accepts the server although no
    full chunk that cannot be compressed fits. *)
Theorem C41_margin_refuted hmac sha256 x25519 base seal unseal seal' unseal' deflate r priv hn mn now ts tag to off dg data b c key content s time motd :
  load_sets content default_sets = Some s -> 262900 < g_chunk s <= 263168 -> g_attach s <> 0 -> maxsize c = g_msg s ->
  (- 2 ^ 63 <= time < 2 ^ 63)%Z -> time <> (-1)%Z -> len motd <= 2 ^ 31 - 4 ->
  box_law seal unseal -> box_law seal' unseal' -> (forall x, length (base x) = 32%nat) -> length hn = 24%nat -> length mn = 24%nat ->
  len to = 32 -> len dg = 32 -> len data = g_chunk s ->
  len (payload_xdr (Ch (mkChunk off dg data))) < len (deflate (payload_xdr (Ch (mkChunk off dg data)))) ->
  crpc_request hmac sha256 x25519 base seal deflate r priv hn mn now ts tag to (Ch (mkChunk off dg data)) = Some b ->
  (exists l w, welcome_phase (server_welcome s time motd) = WOnline l w /\ n_chunk l = len data) /\
  snd (write_key seal' c key b) = Err SessionModel.ErrOverflow.
Proof.
  intros L G Ga Mc Ht Hn Hmo B B' Hb Hh Hm Hto Hd Hs Inc R. destruct (C44_settings _ _ L) as (M & So & _). split.
  - destruct (proj1 (C44_server s time motd So Ht Hmo)) as (t & _ & W); [repeat split; auto; lia|]. rewrite W. eexists. eexists. split; [reflexivity|]. now rewrite Hs.
  - apply (write_iff seal' unseal' _ _ _ B'). rewrite (proj1 (write_iff seal' unseal' _ _ _ B')).
    rewrite (proj2 (C41_size _ _ _ _ _ unseal _ _ _ _ _ _ _ _ _ _ _ _ _ B Hb Hh Hm Hto Hd R) Inc), Mc, M, Hs.
    assert ((262901 + 3) / 4 <= (g_chunk s + 3) / 4) by (apply N.div_le_mono; lia). change ((262901 + 3) / 4) with 65726 in *. lia.
Qed.
Print Assumptions C41_margin_refuted.

(** * C57: what the server takes and what it can pass on *)

(** A request with [n] bytes for a contact can be written if the message size is at
    least 80 more than [n] rounded up to a multiple of four; passing it on takes four
    more. *)
Theorem C57_sizes seal unseal c key ts tag to p d tag' : box_law seal unseal -> len to = 32 -> len (DiskMessage_From d) = 32 ->
  DiskMessage_Payload d = p ->
  (write_ok (snd (write_key seal c key (cache_request ts tag to p))) <-> 4 * ((len p + 3) / 4) + 80 <= maxsize c) /\
  (write_ok (snd (write_key seal c key (proxy_request ts tag to p))) <-> 4 * ((len p + 3) / 4) + 80 <= maxsize c) /\
  (write_ok (snd (write_key seal c key (push_message tag' d))) <-> 4 * ((len p + 3) / 4) + 84 <= maxsize c).
Proof.
  intros B T F <-. rewrite !(fun m => proj1 (write_iff seal unseal c key m B)).
  rewrite len_cache, len_proxy, len_push by auto. rewrite padded_spec. lia.
Qed.
Print Assumptions C57_sizes.

Lemma fixed_ok k b : len b = k -> size_ok k b.
Proof. unfold len, size_ok. lia. Qed.

(** What the server does pass on arrives as it was stored. *)
Theorem C57_delivered seal unseal c key tag d c' i w r rest : box_law seal unseal ->
  DiskMessage_ok 0 d -> tag < 2 ^ 32 -> 4 * ((len (DiskMessage_Payload d) + 3) / 4) + 84 <= maxsize c ->
  4 * ((len (DiskMessage_Payload d) + 3) / 4) + 88 <= 2 ^ 31 ->
  maxsize c <= maxsize c' -> at_seq c i w -> at_seq c' r i ->
  exists c1 c1' wire b,
    write_key seal c key (push_message tag d) = (c1, Ok wire) /\
    read_key unseal c' key (wire ++ rest) = (c1', Ok (push_message tag d, rest)) /\
    dec Message_codec 0 (push_message tag d) = Some (mkMessage (bs "push") 0 (DiskMessage_Cleartext d) tag, b) /\
    dec Push_codec 0 b = Some (mkPush (DiskMessage_From d) (DiskMessage_Received d) (DiskMessage_Payload d), []).
Proof.
  intros [B1 B2] (D1 & D2 & D3) T F F2 M Q Q'.
  assert (LF : len (DiskMessage_From d) = 32) by (unfold len; unfold size_ok in D1; lia).
  pose proof (len_push tag d LF) as L. rewrite padded_spec in L. unfold len in L at 1.
  eexists. eexists. eexists. exists (enc Push_codec (mkPush (DiskMessage_From d) (DiskMessage_Received d) (DiskMessage_Payload d))).
  split; [apply (write_fits seal unseal B1 B2); eauto; unfold fits; lia|].
  split; [apply (read_frame seal unseal B1 B2); eauto; [unfold fits; lia|lia]|]. split.
  - apply good_Message. split; [split; [vm_compute; congruence|now left]|]. split; [cbn [Message_TimeStamp]; unfold i64_ok; lia|exact T].
  - rewrite <- (app_nil_r (enc Push_codec _)). apply good_Push. exact (conj D1 (conj D2 D3)).
Qed.
Print Assumptions C57_delivered.

(** For every message size there are payloads that the server takes, acknowledges and
    stores, but can never pass on: the four longest that it takes. *)
Theorem C57_taken_refuted seal unseal c key ts tag to p me held e v o v' bm' :
  box_law seal unseal -> i64_ok ts -> tag < 32 -> len to = 32 -> len me = 32 -> i64_ok (e_now e) -> maxsize c <= 2 ^ 31 ->
  4 * ((len p + 3) / 4) + 80 <= maxsize c < 4 * ((len p + 3) / 4) + 84 -> takes (v_store v) to (e_name e) ->
  round (maxsize c) me held e v (repeat false 32) (cache_request ts tag to p) o v' bm' ->
  let d := mkDiskMessage me (e_now e) p false in
  write_ok (snd (write_key seal c key (cache_request ts tag to p))) /\
  (exists b rest, o = Answers [b] /\ dec Message_codec 0 b = Some (mkMessage (bs "ack") 0 false tag, rest) /\
     dec Acknowledge_codec 0 rest = Some (mkAcknowledge [] 0, [])) /\
  (exists b, mailfile (v_store v') (hex_encode to) (e_name e) = Some b /\ read_msg b = Some d) /\
  (forall tag' c' key', maxsize c' = maxsize c -> snd (write_key seal c' key' (push_message tag' d)) = Err SessionModel.ErrOverflow).
Proof.
  intros B Hts Ht Hto Hme Hn Hmax Hw Htk R d.
  destruct (C57_sizes seal unseal c key ts tag to p d 0 B Hto Hme eq_refl) as (S1 & _ & S3).
  assert (SP : str_ok 0 p).
  { split; [|left; reflexivity]. clear R. pose proof (padded_spec (N.of_nat (length p))) as P. unfold padded in P. rewrite P. unfold len in Hw. unfold max_int32. lia. }
  assert (SPm : str_ok (maxsize c) p).
  { clear R. split; [apply SP|]. right. pose proof (padded_bounds (len p)) as P. rewrite padded_spec in P. unfold len in *. lia. }
  assert (Mo : Message_ok (maxsize c) (mkMessage (bs "cache") ts false tag)).
  { clear R. split; [split; [vm_compute; congruence|right; cbn [Message_Command]; change (N.of_nat (length (bs "cache"))) with 5; lia]|]. split; [exact Hts|]. unfold u32_ok. cbn [Message_Tag]. lia. }
  unfold cache_request in R. rewrite <- (app_nil_r (enc Cache_codec _)) in R.
  pose proof (C24_cache _ _ _ _ _ ts false tag to p [] o v' bm' Mo (conj (fixed_ok 32 to Hto) SPm) Ht R) as
    (b & a & rest & E & _ & _ & D1 & D2 & A1 & A2 & _).
  clear R. pose proof (proj2 A1 Htk) as A. destruct (A2 A) as [A3 A4]. split; [apply S1; lia|]. split.
  - exists b, rest. split; [exact E|]. split; [exact D1|]. rewrite D2. destruct a. cbn in A, A3. now subst.
  - split.
    + exists (enc DiskMessage_codec d). split; [|apply read_enc; exact (conj (fixed_ok 32 me Hme) (conj Hn SP))].
      rewrite A4. now rewrite !eqb_refl.
    + intros tag' c' key' Mc. destruct (C57_sizes seal unseal c' key' ts tag to p d tag' B Hto Hme eq_refl) as (_ & _ & S).
      apply (write_iff seal unseal _ _ _ B). rewrite S, Mc. lia.
Qed.
Print Assumptions C57_taken_refuted.

(** Which these are: the at most four lengths that round up to one number. *)
Theorem C57_window max : 80 <= max -> exists n, forall p : bytes,
  (4 * ((len p + 3) / 4) + 80 <= max < 4 * ((len p + 3) / 4) + 84 <-> n - 3 <= len p <= n /\ (n = 0 -> len p = 0)).
Proof.
  intros H. exists (4 * ((max - 80) / 4)). intros p.
  pose proof (N.div_mod (max - 80) 4 ltac:(lia)) as D. pose proof (N.mod_lt (max - 80) 4 ltac:(lia)) as M.
  pose proof (N.div_mod (len p + 3) 4 ltac:(lia)) as D'. pose proof (N.mod_lt (len p + 3) 4 ltac:(lia)) as M'.
  set (q := (max - 80) / 4) in *. set (q' := (len p + 3) / 4) in *. split.
  - intros W. lia.
  - intros W. lia.
Qed.
Print Assumptions C57_window.

(** * Cases *)

Definition z32 : bytes := repeat 0 32.
Definition z24 : bytes := repeat 7 24.
Definition no_gain (x : bytes) : bytes := 0 :: x.

Example size_case : exists b,
  crpc_request toy_hmac toy_sha toy_x25519 toy_base RatchetCases.toy_seal no_gain toy_b [5] z24 z24 100 101 3 z32 (Ch (mkChunk 0 z32 [1; 2; 3; 4; 5])) = Some b /\ len b + 16 = 276.
Proof. eexists. split; [vm_compute; reflexivity|]. vm_compute. reflexivity. Qed.

Lemma toy_base_length x : length (toy_base x) = 32%nat.
Proof. reflexivity. Qed.

Definition full_chunk : bytes := repeat 9 (N.to_nat 262144).
Lemma full_length : len full_chunk = 262144.
Proof. unfold len, full_chunk. now rewrite repeat_length, N2Nat.id. Qed.
Example settings_case_sends data : exists ct,
  snd (encrypt toy_hmac toy_sha toy_x25519 toy_base RatchetCases.toy_seal toy_b [5] z24 z24 (crpc_plain no_gain 100 (Ch (mkChunk 0 z32 data)))) = Some ct.
Proof. eexists. unfold encrypt. change (ratchet_flag toy_b) with false. cbv iota beta zeta. cbn [negb snd]. reflexivity. Qed.
Example settings_case ct :
  snd (encrypt toy_hmac toy_sha toy_x25519 toy_base RatchetCases.toy_seal toy_b [5] z24 z24 (crpc_plain no_gain 100 (Ch (mkChunk 0 z32 full_chunk)))) = Some ct ->
  write_ok (snd (write_key SessionProps.toy_seal (mkChan (nonce_at 0) (nonce_at 0) 263168) [1] (cache_request 101 3 z32 ct))) /\
  write_ok (snd (write_key SessionProps.toy_seal (mkChan (nonce_at 5) (nonce_at 0) 263168) [2] (push_message 0 (mkDiskMessage z32 7 ct false)))).
Proof.
  pose proof full_length as L. generalize dependent full_chunk. intros data L.
  apply (C41_settings toy_hmac toy_sha toy_x25519 toy_base RatchetCases.toy_seal RatchetCases.toy_unseal SessionProps.toy_seal SessionProps.toy_unseal
    no_gain toy_b [5] z24 z24 100 101 3 z32 0 z32 data ct z32 7 0 _ [1] _ [2] [] default_sets).
  1-4: vm_compute; congruence.
  1: exact toy_box.
  1: exact toy_box_law.
  1: exact toy_base_length.
  1-5: reflexivity.
  rewrite L. vm_compute. congruence.
Qed.

Definition tight_conf : bytes := bs "maxchunksize = 262901" ++ [10].
Definition tight_sets : sets := mkSets false (bs "no") false 10485760 262901 263168 false false.
Example margin_case : exists b,
  crpc_request toy_hmac toy_sha toy_x25519 toy_base RatchetCases.toy_seal no_gain toy_b [5] z24 z24 100 101 3 z32 (Ch (mkChunk 0 z32 (repeat 9 (N.to_nat 262901)))) = Some b /\
  (exists l w, welcome_phase (server_welcome tight_sets 1500000000 []) = WOnline l w /\ n_chunk l = 262901) /\
  snd (write_key SessionProps.toy_seal (mkChan (nonce_at 0) (nonce_at 0) 263168) [1] b) = Err SessionModel.ErrOverflow.
Proof.
  assert (L : len (repeat 9 (N.to_nat 262901)) = 262901) by (unfold len; now rewrite repeat_length, N2Nat.id).
  set (data := repeat 9 (N.to_nat 262901)) in *. clearbody data.
  assert (R : exists b, crpc_request toy_hmac toy_sha toy_x25519 toy_base RatchetCases.toy_seal no_gain toy_b [5] z24 z24 100 101 3 z32 (Ch (mkChunk 0 z32 data)) = Some b).
  { destruct (settings_case_sends data) as [ct E]. unfold crpc_request. rewrite E. eexists. reflexivity. }
  destruct R as [b R]. exists b. split; [exact R|]. rewrite <- L.
  apply (C41_margin_refuted toy_hmac toy_sha toy_x25519 toy_base RatchetCases.toy_seal RatchetCases.toy_unseal SessionProps.toy_seal SessionProps.toy_unseal
    no_gain toy_b [5] z24 z24 100 101 3 z32 0 z32 data b _ [1] tight_conf tight_sets 1500000000 []).
  - vm_compute. reflexivity.
  - vm_compute. split; congruence.
  - vm_compute. congruence.
  - reflexivity.
  - lia.
  - lia.
  - vm_compute. congruence.
  - exact toy_box.
  - exact toy_box_law.
  - exact toy_base_length.
  - reflexivity.
  - reflexivity.
  - reflexivity.
  - reflexivity.
  - exact L.
  - unfold no_gain. rewrite len_cons. lia.
  - exact R.
Qed.

Definition mail_store : store := [(hex_encode z32, {| a_user := None; a_cache := Some [] |})].
Example taken_case : exists o v' bm',
  round 263168 (repeat 1 32) (fun _ => None) (mkEnv (bs "x") 5 (fun _ => None)) (mkSrv mail_store None) (repeat false 32)
    (cache_request 9 4 z32 (repeat 8 (N.to_nat 263085))) o v' bm' /\
  (exists b, mailfile (v_store v') (hex_encode z32) (bs "x") = Some b /\ read_msg b = Some (mkDiskMessage (repeat 1 32) 5 (repeat 8 (N.to_nat 263085)) false)) /\
  (forall tag' c' key', maxsize c' = 263168 ->
     snd (write_key SessionProps.toy_seal c' key' (push_message tag' (mkDiskMessage (repeat 1 32) 5 (repeat 8 (N.to_nat 263085)) false))) = Err SessionModel.ErrOverflow).
Proof.
  assert (L : len (repeat 8 (N.to_nat 263085)) = 263085) by (unfold len; now rewrite repeat_length, N2Nat.id).
  set (data := repeat 8 (N.to_nat 263085)) in *. clearbody data.
  destruct (C24_total 263168 (repeat 1 32) (fun _ => None) (mkEnv (bs "x") 5 (fun _ => None)) (mkSrv mail_store None) (cache_request 9 4 z32 data)) as (o & v' & bm' & R).
  exists o, v', bm'. split; [exact R|].
  refine (proj2 (proj2 (C57_taken_refuted SessionProps.toy_seal SessionProps.toy_unseal (mkChan (nonce_at 0) (nonce_at 0) 263168) [1] 9 4 z32 data _ _ _ _ o v' bm' toy_box_law _ _ _ _ _ _ _ _ R))); clear R.
  - unfold i64_ok. lia.
  - lia.
  - reflexivity.
  - reflexivity.
  - unfold i64_ok. cbn [e_now]. lia.
  - vm_compute. congruence.
  - cbn [maxsize]. rewrite L. vm_compute. split; congruence.
  - eexists. eexists. split; [vm_compute; reflexivity|]. split; reflexivity.
Qed.

(** A length and a limit for which passing on works, with the least limit. *)
Example delivered_case : exists c1 c1' wire b,
  write_key SessionProps.toy_seal (mkChan (nonce_at 3) (nonce_at 8) 92) [1] (push_message 31 (mkDiskMessage z32 7 [1; 2; 3; 4; 5] true)) = (c1, Ok wire) /\
  read_key SessionProps.toy_unseal (mkChan (nonce_at 8) (nonce_at 3) 92) [1] (wire ++ [6]) = (c1', Ok (push_message 31 (mkDiskMessage z32 7 [1; 2; 3; 4; 5] true), [6])) /\
  dec Message_codec 0 (push_message 31 (mkDiskMessage z32 7 [1; 2; 3; 4; 5] true)) = Some (mkMessage (bs "push") 0 true 31, b) /\
  dec Push_codec 0 b = Some (mkPush z32 7 [1; 2; 3; 4; 5], []).
Proof.
  apply (C57_delivered SessionProps.toy_seal SessionProps.toy_unseal _ [1] 31 (mkDiskMessage z32 7 [1; 2; 3; 4; 5] true) _ 3 8 8 [6] toy_box_law);
    try apply at_seq_mk; try (vm_compute; congruence). vm_compute. intuition congruence.
Qed.
