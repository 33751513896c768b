(** C15 to C21: the ratchet. *)
From Verif Require Import Base XdrModel XdrProofs RpcModel BlobModel SessionProofs SessionProps RatchetModel RatchetProofs
  RatchetSaveProofs RatchetConvModel RatchetConvProofs.
Local Open Scope N_scope.

(** What is assumed of the key encapsulation. *)
Definition decap_law (keypair : bytes -> bytes -> Prop) (encap : bytes -> bytes -> bytes * bytes)
    (decap : bytes -> bytes -> option bytes) : Prop :=
  forall coins pk sk, keypair pk sk -> decap sk (fst (encap coins pk)) = Some (snd (encap coins pk)).

(** * C20 *)

Lemma accept_share scrypt seal unseal salt nonce pw data :
  (forall k n m, unseal k n (seal k n m) = Some m) -> length salt = 32%nat -> length nonce = 24%nat ->
  accept scrypt unseal pw (share scrypt seal salt nonce pw data) = Ok data.
Proof.
  intros B L1 L2. unfold share, new_key, accept. cbn [fst snd]. unfold BlobModel.encrypt, pack_salt_nonce, unpack_salt_nonce.
  assert (Hlen : (length (salt ++ nonce ++ seal (derive_key scrypt pw salt) nonce data) <? 56)%nat = false).
  { rewrite !app_length. apply Nat.ltb_ge. lia. }
  rewrite Hlen, (firstn_app_len 32), (skipn_app_len 32), (firstn_app_len 24) by auto.
  rewrite app_assoc, (skipn_app_len 56) by (rewrite app_length; lia).
  unfold BlobModel.decrypt. now rewrite B.
Qed.

(** Two fresh ratchets exchange their halves, in opposite roles: both complete, and
    what one sends with is what the other receives with. *)
Theorem C20_key_exchange :
  forall hmac sha256 base seal unseal scrypt (keypair : bytes -> bytes -> Prop) encap decap,
  (forall k n m, unseal k n (seal k n m) = Some m) -> decap_law keypair encap decap ->
  forall pk_a sk_a pk_b sk_b priv_a priv_b coins_a coins_b salt_a salt_b nonce_a nonce_b,
  keypair pk_a sk_a -> keypair pk_b sk_b ->
  length salt_a = 32%nat -> length salt_b = 32%nat -> length nonce_a = 24%nat -> length nonce_b = 24%nat ->
  valid_point (base priv_a) = true -> valid_point (base priv_b) = true ->
  exists a1 b1 kx_a kx_b a b,
    fill_kx base seal scrypt encap (new_ratchet priv_a) pk_b coins_a salt_a nonce_a = (a1, Ok kx_a) /\
    fill_kx base seal scrypt encap (new_ratchet priv_b) pk_a coins_b salt_b nonce_b = (b1, Ok kx_b) /\
    complete_kx hmac sha256 unseal scrypt decap a1 sk_a kx_b true = (a, Ok tt) /\
    complete_kx hmac sha256 unseal scrypt decap b1 sk_b kx_a false = (b, Ok tt) /\
    root_key a = root_key b /\
    send_header b = recv_header a /\ send_chain b = recv_chain a /\
    next_send_header a = next_recv_header b /\ next_send_header b = next_recv_header a /\
    recv_public a = base (send_private b) /\ send_private b = priv_b /\
    (exists shared, shared = sha256 (snd (encap coins_a pk_b) ++ snd (encap coins_b pk_a)) /\
       root_key a = hmac shared (bs "root key") /\ send_header b = hmac shared (bs "header key") /\
       send_chain b = hmac shared (bs "chain key") /\
       next_send_header a = hmac shared (bs "next send header key") /\
       next_send_header b = hmac shared (bs "next receive header key")) /\
    ratchet_flag a = true /\ ratchet_flag b = false /\
    kx_private a = None /\ kx_private b = None /\
    send_count a = 0 /\ recv_count a = 0 /\ send_count b = 0 /\ recv_count b = 0.
Proof.
  intros hmac sha256 base seal unseal scrypt keypair encap decap B K pk_a sk_a pk_b sk_b priv_a priv_b
    coins_a coins_b salt_a salt_b nonce_a nonce_b Ka Kb L1 L2 L3 L4 Va Vb.
  pose proof (K coins_a pk_b sk_b Kb) as D1. pose proof (K coins_b pk_a sk_a Ka) as D2.
  unfold fill_kx. destruct (encap coins_a pk_b) as [ca ka]. destruct (encap coins_b pk_a) as [cb kb].
  cbn [fst snd new_ratchet kx_private] in *.
  do 6 eexists. split; [reflexivity|]. split; [reflexivity|].
  unfold complete_kx. cbn [kx_cipher kx_public my_half kx_private]. rewrite D1, D2.
  rewrite !accept_share by auto. rewrite Va, Vb. cbn [negb].
  split; [reflexivity|]. split; [reflexivity|]. cbn. repeat (split; [reflexivity|]).
  split; [|repeat split]. eexists. split; [reflexivity|]. repeat split.
Qed.
Print Assumptions C20_key_exchange.

(** A completion that fails changes nothing but the stored half of the other side;
    it panics when no half was sent first. *)
Theorem C20_failure :
  forall hmac sha256 unseal scrypt decap r sk kx alice r' out,
  complete_kx hmac sha256 unseal scrypt decap r sk kx alice = (r', out) ->
  (out = Ok tt -> my_half r <> None) /\
  (out <> Ok tt ->
   r' = r \/ exists k, r' = mkRatchet (root_key r) (send_header r) (recv_header r) (next_send_header r) (next_recv_header r)
      (send_chain r) (recv_chain r) (send_private r) (recv_public r) (send_count r) (recv_count r) (prev_count r)
      (ratchet_flag r) (saved r) (my_half r) (Some k) (kx_private r)).
Proof.
  intros hmac sha256 unseal scrypt decap r sk kx alice r' out. unfold complete_kx.
  destruct (decap sk (kx_cipher kx)) as [k|]; [|intros [= <- <-]; split; [discriminate|left; auto]].
  cbn [my_half kx_private].
  destruct (accept scrypt unseal k (kx_public kx)) as [pub| |]; try (intros [= <- <-]; split; [discriminate|right; eauto]).
  destruct (negb (valid_point pub)); [intros [= <- <-]; split; [discriminate|right; eauto]|].
  destruct (my_half r) as [m|] eqn:M; [|intros [= <- <-]; split; [discriminate|right; eauto]].
  destruct alice; [intros [= <- <-]; split; [congruence|tauto]|].
  destruct (kx_private r) eqn:P; [intros [= <- <-]; split; [congruence|tauto]|].
  intros [= <- <-]. split; [discriminate|right; eauto].
Qed.
Print Assumptions C20_failure.

(** * C21 *)

Theorem C21_points : forall p, length p = 32%nat ->
  valid_point p = true <-> 3 <= of_le p <= 2 ^ 255 - 20.
Proof.
  intros p L. unfold valid_point. rewrite L, of_be_rev. change (negb (N.of_nat 32 =? 32)) with false. cbv iota zeta.
  rewrite andb_true_iff, negb_true_iff, N.ltb_ge, N.ltb_lt.
  assert (H : 2 ^ 255 - 20 = N.pred (2 ^ 255 - 19)) by reflexivity. rewrite H. lia.
Qed.
Print Assumptions C21_points.

Example C21_values :
  map valid_point [repeat 0 32; 1 :: repeat 0 31; 3 :: repeat 0 31; 236 :: repeat 255 30 ++ [127];
                   237 :: repeat 255 30 ++ [127]; repeat 255 32; [9]] = [false; false; true; true; false; false; false].
Proof. reflexivity. Qed.

(** * C16 *)

(** After an error the state is the old one; the only exception is a message with
    empty plaintext whose key had been saved: that key is gone. *)
Theorem C16_failure :
  forall hmac sha256 x25519 unseal order now r ct r',
  decrypt hmac sha256 x25519 unseal order now r ct = (r', Fail) ->
  r' = r \/
  exists hk h k sv',
    unseal hk (ct_nonce ct) (ct_header ct) = Some h /\ lookup (saved r) hk (h_num h) = Some k /\
    unseal (sk_key k) (h_nonce h) (ct_body ct) = Some [] /\
    (forall hk' n, lookup sv' hk' n = if eqb hk' hk && eqb n (h_num h) then None else lookup (saved r) hk' n) /\
    r' = set_saved r sv'.
Proof.
  intros hmac sha256 x25519 unseal order now r ct r' H. apply decrypt_fail in H.
  destruct H as [->|(sv' & (hk & h & k & A & B & C & D) & ->)]; [left; auto|right]. exists hk, h, k, sv'. auto.
Qed.
Print Assumptions C16_failure.

(** * C18 *)

Lemma no_saved unseal sv ct : (forall hk h, unseal hk (ct_nonce ct) (ct_header ct) = Some h -> lookup sv hk (h_num h) = None) ->
  forall order, try_saved unseal order sv ct = Some (sv, []).
Proof.
  intros H. induction order as [|hk order IH]; cbn [try_saved]; auto.
  destruct (mget sv hk) as [keys|] eqn:G; auto. destruct (unseal hk (ct_nonce ct) (ct_header ct)) as [h|] eqn:U; auto.
  destruct (negb _); auto. specialize (H hk h U). unfold lookup in H. rewrite G in H. now rewrite H.
Qed.

Lemma save_keys_inv hmac now ck num count c m ks : num < 2 ^ 32 -> save_keys hmac now ck num count = Keys c m ks ->
  NoDup (mkeys ks) /\ (length (mkeys ks) <= 80)%nat /\ count <= num <= count + 80.
Proof.
  intros B S. pose proof (save_keys_bound hmac now ck num count c m ks B S) as L. revert S.
  destruct (N.ltb_spec num count) as [H1|H1]; [now rewrite save_keys_past|].
  destruct (N.ltb_spec (count + 80) num) as [H2|H2]; [now rewrite save_keys_far|].
  destruct (N.eq_dec num (2 ^ 32 - 1)) as [->|H3].
  - unfold save_keys. rewrite save_loop_forever by lia. destruct (_ <? _); [discriminate|]. destruct (_ <? _); discriminate.
  - rewrite save_keys_ok by lia. intros [= _ _ <-]. split; [apply NoDup_skipped|]. split; [|lia].
    unfold mkeys. now rewrite map_length.
Qed.

(** At most 80 new keys are stored per chain. *)
Theorem C18_bound :
  forall hmac sha256 x25519 unseal order now r ct r' out,
  (forall k n c m, unseal k n c = Some m -> Forall is_byte m) -> recv_header r <> next_recv_header r ->
  decrypt hmac sha256 x25519 unseal order now r ct = (r', out) ->
  forall hk, exists new : list N, (length new <= 80)%nat /\
    forall n, lookup (saved r') hk n <> None -> lookup (saved r) hk n <> None \/ In n new.
Proof.
  intros hmac sha256 x25519 unseal order now r ct r' out By Hne H hk.
  assert (BI : forall (h : bytes), Forall is_byte h -> length h = 64%nat -> h_num h < 2 ^ 32 /\ h_prev h < 2 ^ 32).
  { assert (FF : forall n (l : bytes), Forall is_byte l -> Forall is_byte (firstn n l)).
    { intros n l. rewrite !Forall_forall. intros F x Hx. apply F. rewrite <- (firstn_skipn n l). apply in_or_app. auto. }
    assert (FS : forall n (l : bytes), Forall is_byte l -> Forall is_byte (skipn n l)).
    { intros n l. rewrite !Forall_forall. intros F x Hx. apply F. rewrite <- (firstn_skipn n l). apply in_or_app. auto. }
    intros h F L. split; apply get_le32_lt; auto; rewrite firstn_length, ?skipn_length; lia. }
  assert (KEEP : forall sv, (forall n, lookup sv hk n <> None -> lookup (saved r) hk n <> None) ->
     exists new : list N, (length new <= 80)%nat /\ forall n, lookup sv hk n <> None -> lookup (saved r) hk n <> None \/ In n new).
  { intros sv Hs. exists []. split; [cbn; lia|]. auto. }
  unfold decrypt in H. destruct (_ <? 104); [injection H as <- <-; now apply KEEP|].
  pose proof (try_saved_spec unseal order (saved r) ct) as T.
  destruct (try_saved unseal order (saved r) ct) as [[sv m]|]; [|injection H as <- <-; now apply KEEP].
  assert (SV : forall k n, lookup sv k n <> None -> lookup (saved r) k n <> None).
  { destruct T as [[-> _]|(k0 & h & k & _ & _ & _ & T)]; auto. intros k1 n. rewrite T. destruct (_ && _); congruence. }
  destruct m as [|x m]; [|injection H as <- <-; apply KEEP; auto]. cbv zeta in H.
  assert (LEN : forall h : bytes, negb (N.of_nat (length h) =? 64) = false -> length h = 64%nat).
  { intros h X. apply negb_false_iff, N.eqb_eq in X. lia. }
  assert (MG : forall sv1 hd keys n, NoDup (mkeys keys) -> lookup (merge_saved sv1 hd keys) hk n <> None ->
            lookup sv1 hk n <> None \/ (hk = hd /\ In n (mkeys keys))).
  { intros sv1 hd keys n ND. rewrite lookup_merge by auto. destruct (eqb_spec hk hd) as [->|]; [|auto].
    destruct (mget keys n) eqn:G; [|auto]. intros _. right. split; auto. now apply mget_Some_keys in G. }
  cbn [set_saved recv_header next_recv_header] in H.
  destruct (if is_zero_key (recv_header r) then None else unseal (recv_header r) (ct_nonce ct) (ct_header ct)) as [h|] eqn:C.
  - assert (F : Forall is_byte h) by (destruct (is_zero_key _); [discriminate|eapply By; exact C]).
    unfold decrypt_current in H. destruct (negb _) eqn:L; [injection H as <- <-; apply KEEP; auto|]. apply LEN in L.
    destruct (BI h F L) as [B1 B2]. cbn [set_saved recv_chain recv_count] in H.
    destruct (save_keys _ _ _ _ _) as [| |c mk keys] eqn:S; try (injection H as <- <-; apply KEEP; auto).
    destruct (unseal mk _ _) as [msg|]; injection H as <- <-; [|apply KEEP; auto].
    destruct (save_keys_inv _ _ _ _ _ _ _ _ B1 S) as (N1 & N2 & _).
    exists (mkeys keys). split; auto. cbn [set_saved saved recv_header]. intros n X. apply MG in X; auto.
    destruct X as [X|[_ X]]; [left|right]; auto.
  - destruct (unseal (next_recv_header r) (ct_nonce ct) (ct_header ct)) as [h|] eqn:C2; [|injection H as <- <-; apply KEEP; auto].
    assert (F : Forall is_byte h) by (eapply By; exact C2).
    unfold decrypt_next in H. destruct (negb _) eqn:L; [injection H as <- <-; apply KEEP; auto|]. apply LEN in L.
    destruct (BI h F L) as [B1 B2].
    cbn [set_saved recv_chain recv_count ratchet_flag send_private root_key saved recv_header next_recv_header] in H.
    destruct (ratchet_flag r); [injection H as <- <-; apply KEEP; auto|].
    destruct (save_keys _ _ _ _ _) as [| |c mk keys] eqn:S; try (injection H as <- <-; apply KEEP; auto).
    destruct (x25519 _ _); [|injection H as <- <-; apply KEEP; auto].
    destruct (save_keys _ _ (hmac _ chain_label) _ _) as [| |c2 mk2 keys2] eqn:S2; try (injection H as <- <-; apply KEEP; auto).
    destruct (unseal mk2 _ _) as [msg|]; injection H as <- <-; [|apply KEEP; auto].
    destruct (save_keys_inv _ _ _ _ _ _ _ _ B2 S) as (N1 & N2 & _).
    destruct (save_keys_inv _ _ _ _ _ _ _ _ B1 S2) as (N3 & N4 & _). cbn [saved].
    exists (if eqb hk (recv_header r) then mkeys keys else mkeys keys2).
    split; [destruct (eqb hk _); auto|]. intros n X. apply MG in X; auto. destruct X as [X|[-> X]].
    + apply MG in X; auto. destruct X as [X|[-> X]]; [left; auto|]. rewrite eqb_refl. auto.
    + destruct (eqb_spec (next_recv_header r) (recv_header r)); [congruence|auto].
Qed.
Print Assumptions C18_bound.

(** No saved key fits the message. *)
Definition unsaved (unseal : bytes -> bytes -> bytes -> option bytes) (r : ratchet) (ct : bytes) : Prop :=
  forall hk h, unseal hk (ct_nonce ct) (ct_header ct) = Some h -> lookup (saved r) hk (h_num h) = None.

(** Too far ahead in the current chain, in the next one, or in the end of the current
    one announced by the next: refused, nothing changes. *)
Theorem C18_gap :
  forall hmac sha256 x25519 unseal order now r ct h,
  unsaved unseal r ct ->
  (is_zero_key (recv_header r) = false /\ unseal (recv_header r) (ct_nonce ct) (ct_header ct) = Some h /\ recv_count r + 80 < h_num h)
  \/ ((is_zero_key (recv_header r) = true \/ unseal (recv_header r) (ct_nonce ct) (ct_header ct) = None) /\
      unseal (next_recv_header r) (ct_nonce ct) (ct_header ct) = Some h /\
      (recv_count r + 80 < h_prev h \/ (80 < h_num h /\ h_prev h < 2 ^ 32 - 1))) ->
  decrypt hmac sha256 x25519 unseal order now r ct = (r, Fail).
Proof.
  intros hmac sha256 x25519 unseal order now r ct h U H. unfold decrypt.
  destruct (_ <? 104); auto. rewrite no_saved by exact U. rewrite set_saved_id.
  destruct H as [(Hz & H & G)|(Hz & H & G)].
  - rewrite Hz, H. unfold decrypt_current. destruct (negb _); auto. now rewrite save_keys_far.
  - replace (if is_zero_key (recv_header r) then None else unseal (recv_header r) (ct_nonce ct) (ct_header ct)) with (@None bytes).
    2: { destruct Hz as [Hz|Hz]; rewrite Hz; [reflexivity|]. now destruct (is_zero_key _). }
    rewrite H. unfold decrypt_next. destruct (negb _); auto. destruct (ratchet_flag r); auto.
    destruct G as [G|[G G2]]; [now rewrite save_keys_far|].
    destruct (N.ltb_spec (h_prev h) (recv_count r)) as [H1|H1]; [now rewrite save_keys_past|].
    destruct (N.ltb_spec (recv_count r + 80) (h_prev h)) as [H2|H2]; [now rewrite save_keys_far|].
    rewrite save_keys_ok by lia. destruct (x25519 _ _); auto. now rewrite save_keys_far by lia.
Qed.
Print Assumptions C18_gap.

(** A message of the current chain whose counter lies behind is only ever returned
    by a saved key, which is then gone. *)
Theorem C18_past :
  forall hmac sha256 x25519 unseal order now r ct h r' m,
  is_zero_key (recv_header r) = false ->
  unseal (recv_header r) (ct_nonce ct) (ct_header ct) = Some h -> h_num h < recv_count r ->
  decrypt hmac sha256 x25519 unseal order now r ct = (r', Got m) ->
  exists hk h' k, unseal hk (ct_nonce ct) (ct_header ct) = Some h' /\ lookup (saved r) hk (h_num h') = Some k /\
    unseal (sk_key k) (h_nonce h') (ct_body ct) = Some m /\ lookup (saved r') hk (h_num h') = None.
Proof.
  intros hmac sha256 x25519 unseal order now r ct h r' m Z H G D. unfold decrypt in D.
  destruct (_ <? 104); [discriminate|]. pose proof (try_saved_spec unseal order (saved r) ct) as T.
  destruct (try_saved unseal order (saved r) ct) as [[sv [|x m']]|]; [| |discriminate].
  - cbv zeta in D. cbn [set_saved recv_header] in D. rewrite Z, H in D. unfold decrypt_current in D.
    cbn [set_saved recv_chain recv_count] in D. rewrite save_keys_past in D by auto. destruct (negb _); discriminate.
  - injection D as <- <-. destruct T as [[_ T]|(hk & h' & k & T1 & T2 & T3 & T4)]; [discriminate|].
    exists hk, h', k. repeat split; auto. cbn [set_saved saved]. rewrite T4, !eqb_refl. reflexivity.
Qed.
Print Assumptions C18_past.

(** With the counter 2^32-1 the loop of saveKeys does not end, however long it runs. *)
Theorem C18_forever :
  forall hmac sha256 x25519 unseal order now r ct h,
  unsaved unseal r ct -> is_zero_key (recv_header r) = false -> (104 <= length ct)%nat ->
  unseal (recv_header r) (ct_nonce ct) (ct_header ct) = Some h -> length h = 64%nat ->
  h_num h = 2 ^ 32 - 1 -> recv_count r < 2 ^ 32 -> 2 ^ 32 - 1 - 80 <= recv_count r ->
  decrypt hmac sha256 x25519 unseal order now r ct = (r, Hang) /\
  forall fuel, save_loop hmac fuel (recv_count r) (h_num h) now (recv_chain r) zero32 [] = None.
Proof.
  intros hmac sha256 x25519 unseal order now r ct h U Z L H Lh Hn C1 C2. split.
  - unfold decrypt. destruct (N.ltb_spec (N.of_nat (length ct)) 104); [lia|]. rewrite no_saved by exact U.
    rewrite set_saved_id, Z, H. unfold decrypt_current. rewrite Lh. change (negb (N.of_nat 64 =? 64)) with false. cbv iota.
    unfold save_keys. rewrite Hn. destruct (N.ltb_spec (2 ^ 32 - 1) (recv_count r)); [lia|].
    destruct (N.ltb_spec 80 (2 ^ 32 - 1 - recv_count r)); [lia|]. now rewrite save_loop_forever.
  - intros fuel. rewrite Hn. now apply save_loop_forever.
Qed.
Print Assumptions C18_forever.

(** * C19 *)

(** Loading what was saved gives the ratchet without its expired keys (the time
    stamps of the others in whole seconds), and it behaves the same ever after. *)
Theorem C19_restore :
  forall r0 now lifetime r, ratchet_ok r -> saved r0 = [] -> (kx_private r0 = None -> kx_private r = None) ->
  exists r', unmarshal r0 (marshal now lifetime r) = Ok r' /\
    root_key r' = root_key r /\ send_header r' = send_header r /\ recv_header r' = recv_header r /\
    next_send_header r' = next_send_header r /\ next_recv_header r' = next_recv_header r /\
    send_chain r' = send_chain r /\ recv_chain r' = recv_chain r /\
    send_private r' = send_private r /\ recv_public r' = recv_public r /\
    send_count r' = send_count r /\ recv_count r' = recv_count r /\ prev_count r' = prev_count r /\
    ratchet_flag r' = ratchet_flag r /\ my_half r' = my_half r /\ their_half r' = their_half r /\
    kx_private r' = kx_private r /\
    (forall hk n, lookup (saved r') hk n =
       match lookup (saved r) hk n with
       | None => None
       | Some k => if (lifetime <? now - sk_time k)%Z then None
                   else Some (mkSaved (sk_key k) (sk_time k / 1000000000 * 1000000000))
       end) /\
    (forall hmac sha256 x25519 base seal unseal ops,
       (forall hk n k, lookup (saved r) hk n = Some k -> (now - sk_time k <= lifetime)%Z) ->
       outputs hmac sha256 x25519 base seal unseal r' ops = outputs hmac sha256 x25519 base seal unseal r ops).
Proof.
  intros r0 now lifetime r OK S0 K. destruct (restore r0 now lifetime r OK S0 K) as (r' & E & S & SV).
  exists r'. split; [exact E|]. assert (S' := S).
  destruct S' as (A1 & A2 & A3 & A4 & A5 & A6 & A7 & A8 & A9 & A10 & A11 & A12 & A13 & _ & A14 & A15 & A16).
  cbn [purge set_saved root_key send_header recv_header next_send_header next_recv_header send_chain recv_chain
       send_private recv_public send_count recv_count prev_count ratchet_flag saved my_half their_half kx_private] in *.
  repeat (split; [assumption|]).
  destruct OK as (_ & _ & _ & _ & _ & _ & _ & _ & _ & _ & _ & _ & D & F). split.
  - intros hk n. rewrite SV. unfold lookup. clear - D F. induction (saved r) as [|[hk' keys] sv IH]; [reflexivity|].
    cbn [map mget fst snd]. inversion D as [|? ? D1 D2]; subst. inversion F as [|? ? (F1 & F2 & F3) F4]; subst.
    destruct (eqb hk hk'); [|now apply IH]. cbn [snd fst] in F2. clear - F2.
    induction keys as [|[n' k] keys IH]; [reflexivity|]. cbn [filter snd map fst mget].
    inversion F2 as [|? ? N1 N2]; subst. destruct (expired now lifetime k) eqn:X; unfold expired in X; cbn [negb map mget fst snd].
    + destruct (eqb_spec n n') as [->|]; [|now apply IH]. rewrite X. rewrite (IH N2).
      apply mget_None in N1. now rewrite N1.
    + destruct (eqb n n'); [now rewrite X|now apply IH].
  - intros hmac sha256 x25519 base seal unseal ops NE. apply same_outputs.
    replace r with (purge now lifetime r); [exact S|]. unfold purge.
    replace (map _ (saved r)) with (saved r); [apply set_saved_id|].
    assert (NE2 : forall hk keys n k, In (hk, keys) (saved r) -> In (n, k) keys -> expired now lifetime k = false).
    { intros hk keys n k I1 I2. unfold expired. apply Z.ltb_ge. apply (NE hk n). unfold lookup.
      rewrite (In_mget _ _ _ D I1). rewrite Forall_forall in F. destruct (F _ I1) as (_ & N & _). now apply In_mget. }
    clear - NE2. induction (saved r) as [|[hk keys] sv IH]; [reflexivity|]. cbn [map fst snd]. f_equal.
    + f_equal. assert (X : forall n k, In (n, k) keys -> expired now lifetime k = false) by (intros; eapply NE2; [left|]; eauto).
      clear - X. induction keys as [|[n k] keys IH]; [reflexivity|]. cbn [filter snd].
      rewrite (X n k) by (left; auto). cbn [negb]. f_equal. apply IH. intros; eapply X; right; eauto.
    + apply IH. intros; eapply NE2; [right|]; eauto.
Qed.
Print Assumptions C19_restore.

(** Saved keys on the boundary of the lifetime, and one beyond. *)
Definition r19 : ratchet :=
  mkRatchet (repeat 1 32) (repeat 2 32) (repeat 3 32) (repeat 4 32) (repeat 5 32) (repeat 6 32) (repeat 7 32)
    (repeat 8 32) (repeat 9 32) 5 6 7 true
    [(repeat 10 32, [(4, mkSaved (repeat 11 32) 1500000000); (5, mkSaved (repeat 12 32) 1499999999)])]
    (Some (repeat 13 32)) None None.
Example C19_values :
  ratchet_ok r19 /\
  match unmarshal (new_ratchet (repeat 0 32)) (marshal 3500000000 2000000000 r19) with
  | Ok r' => saved r' = [(repeat 10 32, [(4, mkSaved (repeat 11 32) 1000000000)])]
  | _ => False
  end.
Proof.
  split; [|vm_compute; reflexivity]. unfold ratchet_ok, r19. cbn. repeat split; auto; repeat constructor; cbn; auto.
  intros [H|[]]; discriminate.
Qed.

(** * C15 and C17 *)

(** The keys of a conversation up to chain [E]: Diffie-Hellman values agree, header
    keys are distinct and not zero. *)
Definition keys_law (hmac : bytes -> bytes -> bytes) sha256 x25519 base (xs : nat -> bytes) sk (E : nat) : Prop :=
  (forall e, x25519 (xs (S e)) (base (xs e)) = Some (dh x25519 base xs (S e)) /\
             x25519 (xs e) (base (xs (S e))) = Some (dh x25519 base xs (S e))) /\
  (forall e e', (1 <= e <= E)%nat -> (1 <= e' <= E)%nat ->
     hk hmac sha256 x25519 base xs sk e = hk hmac sha256 x25519 base xs sk e' -> e = e') /\
  (forall e, (1 <= e <= E)%nat -> is_zero_key (hk hmac sha256 x25519 base xs sk e) = false).

(** Two ratchets after the key exchange: alice and bob each sent a half made by the
    key encapsulation, and completed with the other's. *)
Definition established hmac sha256 base seal unseal scrypt encap decap (xs : nat -> bytes) (sk : bytes) (a b : ratchet) : Prop :=
  exists (keypair : bytes -> bytes -> Prop) pk_a sk_a pk_b sk_b priv_a coins_a coins_b salt_a salt_b nonce_a nonce_b a1 b1 kx_a kx_b,
    decap_law keypair encap decap /\ keypair pk_a sk_a /\ keypair pk_b sk_b /\
    length salt_a = 32%nat /\ length salt_b = 32%nat /\ length nonce_a = 24%nat /\ length nonce_b = 24%nat /\
    fill_kx base seal scrypt encap (new_ratchet priv_a) pk_b coins_a salt_a nonce_a = (a1, Ok kx_a) /\
    fill_kx base seal scrypt encap (new_ratchet (xs 1%nat)) pk_a coins_b salt_b nonce_b = (b1, Ok kx_b) /\
    complete_kx hmac sha256 unseal scrypt decap a1 sk_a kx_b true = (a, Ok tt) /\
    complete_kx hmac sha256 unseal scrypt decap b1 sk_b kx_a false = (b, Ok tt) /\
    sk = sha256 (snd (encap coins_a pk_b) ++ snd (encap coins_b pk_a)).

Lemma established_start hmac sha256 base seal unseal scrypt encap decap xs sk a b :
  (forall k n m, unseal k n (seal k n m) = Some m) ->
  established hmac sha256 base seal unseal scrypt encap decap xs sk a b ->
  exists ma mb, a = start_alice hmac base xs sk ma mb /\ b = start_bob hmac xs sk ma mb.
Proof.
  intros B (keypair & pk_a & sk_a & pk_b & sk_b & priv_a & coins_a & coins_b & salt_a & salt_b & nonce_a & nonce_b & a1 & b1 &
    kx_a & kx_b & D & Ka & Kb & L1 & L2 & L3 & L4 & F1 & F2 & C1 & C2 & SK).
  pose proof (D coins_a pk_b sk_b Kb) as D1. pose proof (D coins_b pk_a sk_a Ka) as D2.
  unfold fill_kx in *. destruct (encap coins_a pk_b) as [ca ka]. destruct (encap coins_b pk_a) as [cb kb].
  cbn [fst snd new_ratchet kx_private] in *. injection F1 as <- <-. injection F2 as <- <-.
  unfold complete_kx in *. cbn [kx_cipher kx_public my_half kx_private] in *. rewrite D2 in C1. rewrite D1 in C2.
  rewrite accept_share in C1 by auto. rewrite accept_share in C2 by auto.
  destruct (negb (valid_point (base (xs 1%nat)))); [discriminate|]. destruct (negb (valid_point (base priv_a))); [discriminate|].
  rewrite <- SK in *. injection C1 as <-. injection C2 as <-. exists (Some ka), (Some kb). split; reflexivity.
Qed.

(** For every sequence of sends and of deliveries of arbitrary bytes, the answers of
    the two ratchets are those of the specification, and Decrypt terminates. *)
Theorem C15_simulation :
  forall hmac sha256 x25519 base seal unseal scrypt encap decap xs sk E a b evs,
  box_law seal unseal -> (forall x, length (base x) = 32%nat) -> keys_law hmac sha256 x25519 base xs sk E ->
  established hmac sha256 base seal unseal scrypt encap decap xs sk a b ->
  fair hmac sha256 x25519 base seal unseal xs sk E (start a b) evs ->
  (length evs + 2 <= E)%nat -> N.of_nat (length evs) < 2 ^ 32 - 1 ->
  Forall (fun r => real_result r = ideal_result r /\ hangs r = false)
    (snd (run hmac sha256 x25519 base seal unseal xs (start a b) evs)).
Proof.
  intros hmac sha256 x25519 base seal unseal scrypt encap decap xs sk E a b evs [B1 B2] BL (K1 & K2 & K3) ES F HE HL.
  destruct (established_start _ _ _ _ _ _ _ _ _ _ _ _ B1 ES) as (ma & mb & -> & ->).
  unshelve (eapply run_ok; [..|]); try eassumption.
  all: try (unshelve (eapply start_inv; eassumption); assumption).
  all: try (destruct who; reflexivity).
  all: cbn [start w_log length]; rewrite ?app_length; cbn [length]; try lia.
  all: intros [|]; cbn [start w_i i_alice i_bob i_cur]; lia.
Qed.
Print Assumptions C15_simulation.

(** In particular: a non-empty message within the limit that the receiver has not
    returned before is returned, with its plaintext. *)
Theorem C15_first_delivery :
  forall hmac sha256 x25519 base seal unseal scrypt encap decap xs sk E a b evs who order now en,
  box_law seal unseal -> (forall x, length (base x) = 32%nat) -> keys_law hmac sha256 x25519 base xs sk E ->
  established hmac sha256 base seal unseal scrypt encap decap xs sk a b ->
  let run := run hmac sha256 x25519 base seal unseal xs (start a b) in
  let answer := answer hmac sha256 x25519 base seal unseal xs in
  fair hmac sha256 x25519 base seal unseal xs sk E (start a b) (evs ++ [Recv who order now (en_ct en)]) ->
  (length evs + 3 <= E)%nat -> N.of_nat (length evs) < 2 ^ 32 - 2 ->
  In en (w_log (fst (run evs))) -> en_from en = negb who -> en_plain en <> [] ->
  en_index en <= 80 -> snd (en_label en) <= 80 ->
  (forall evs1 evs2 order' now', evs = evs1 ++ Recv who order' now' (en_ct en) :: evs2 ->
     answer (fst (run evs1)) (Recv who order' now' (en_ct en)) = None) ->
  answer (fst (run evs)) (Recv who order now (en_ct en)) = Some (en_plain en).
Proof.
  intros hmac sha256 x25519 base seal unseal scrypt encap decap xs sk E a b evs who order now en [B1 B2] BL (K1 & K2 & K3) ES
    run ans F HE HL Hin Hf Hp H1 H2 Hno.
  destruct (established_start _ _ _ _ _ _ _ _ _ _ _ _ B1 ES) as (ma & mb & -> & ->).
  unshelve (eapply first_delivery with (sk := sk) (E := E); [..|exact Hno]); try eassumption.
  all: try (unshelve (eapply start_inv; eassumption); assumption).
  all: try (destruct who; reflexivity).
  all: cbn [start w_log length]; rewrite ?app_length; cbn [length]; try lia.
  all: intros [|]; cbn [start w_i i_alice i_bob i_cur]; lia.
Qed.
Print Assumptions C15_first_delivery.

Theorem C17_no_replay :
  forall hmac sha256 x25519 base seal unseal scrypt encap decap xs sk E a b evs1 evs2 who o1 t1 o2 t2 ct m,
  box_law seal unseal -> (forall x, length (base x) = 32%nat) -> keys_law hmac sha256 x25519 base xs sk E ->
  established hmac sha256 base seal unseal scrypt encap decap xs sk a b ->
  let run := run hmac sha256 x25519 base seal unseal xs (start a b) in
  let answer := answer hmac sha256 x25519 base seal unseal xs in
  fair hmac sha256 x25519 base seal unseal xs sk E (start a b)
    (evs1 ++ [Recv who o1 t1 ct] ++ evs2 ++ [Recv who o2 t2 ct]) ->
  (length evs1 + length evs2 + 4 <= E)%nat -> N.of_nat (length evs1 + length evs2) < 2 ^ 32 - 3 ->
  answer (fst (run evs1)) (Recv who o1 t1 ct) = Some m ->
  answer (fst (run (evs1 ++ [Recv who o1 t1 ct] ++ evs2))) (Recv who o2 t2 ct) = None.
Proof.
  intros hmac sha256 x25519 base seal unseal scrypt encap decap xs sk E a b evs1 evs2 who o1 t1 o2 t2 ct m [B1 B2] BL (K1 & K2 & K3) ES
    run ans F HE HL A.
  destruct (established_start _ _ _ _ _ _ _ _ _ _ _ _ B1 ES) as (ma & mb & -> & ->).
  unshelve (eapply no_replay with (sk := sk) (E := E); [..|exact A]); try eassumption.
  all: try (unshelve (eapply start_inv; eassumption); assumption).
  all: try (destruct who; reflexivity).
  all: cbn [start w_log length]; rewrite ?app_length; cbn [length]; try lia.
  all: intros [|]; cbn [start w_i i_alice i_bob i_cur]; lia.
Qed.
Print Assumptions C17_no_replay.
