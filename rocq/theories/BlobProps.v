(** C07, C08, C09, C50 and C51: blobs, identities and identity strings. *)
From Verif Require Import Base XdrModel XdrProofs RpcModel RpcProofs HexModel BlobModel IdentityModel.

(** * C07: blobs *)

Lemma firstn_app_all {A} n (x y : list A) : length x = n -> firstn n (x ++ y) = x.
Proof.
  intros <-. rewrite firstn_app, firstn_all. replace (length x - length x) with 0 by lia.
  simpl. apply app_nil_r.
Qed.
Lemma skipn_app_all {A} n (x y : list A) : length x = n -> skipn n (x ++ y) = y.
Proof.
  intros <-. rewrite skipn_app, skipn_all. now replace (length x - length x) with 0 by lia.
Qed.

(** Packed parts come back. *)
Theorem C07_unpack_pack : forall salt nonce data,
  length salt = 32 -> length nonce = 24 ->
  unpack_salt_nonce (pack_salt_nonce salt nonce data) = Ok (salt, nonce, data) /\
  unpack_nonce (pack_nonce nonce data) = Ok (nonce, data).
Proof.
  intros salt nonce data Hs Hn.
  unfold unpack_salt_nonce, unpack_nonce, pack_salt_nonce, pack_nonce. split.
  - destruct (Nat.ltb_spec (length (salt ++ nonce ++ data)) 56) as [H|H].
    { rewrite !app_length in H. lia. }
    rewrite firstn_app_all, skipn_app_all by auto.
    rewrite firstn_app_all by auto. f_equal. f_equal.
    rewrite app_assoc. apply skipn_app_all. rewrite app_length. lia.
  - destruct (Nat.ltb_spec (length (nonce ++ data)) 24) as [H|H].
    { rewrite app_length in H. lia. }
    now rewrite firstn_app_all, skipn_app_all.
Qed.
Print Assumptions C07_unpack_pack.

(** Unpacking succeeds exactly on blobs of at least the header length, the parts
    have the right lengths and repack to the blob; on shorter ones it crashes. *)
Theorem C07_pack_unpack : forall blob,
  (length blob >= 56 -> exists salt nonce data,
     unpack_salt_nonce blob = Ok (salt, nonce, data) /\ length salt = 32 /\ length nonce = 24 /\
     pack_salt_nonce salt nonce data = blob) /\
  (length blob < 56 -> unpack_salt_nonce blob = Panic) /\
  (length blob >= 24 -> exists nonce data,
     unpack_nonce blob = Ok (nonce, data) /\ length nonce = 24 /\ pack_nonce nonce data = blob) /\
  (length blob < 24 -> unpack_nonce blob = Panic).
Proof.
  intros blob. unfold unpack_salt_nonce, unpack_nonce, pack_salt_nonce, pack_nonce.
  split; [|split; [|split]]; intros H.
  - destruct (Nat.ltb_spec (length blob) 56); [lia|].
    exists (firstn 32 blob), (firstn 24 (skipn 32 blob)), (skipn 56 blob).
    split; [reflexivity|]. rewrite !firstn_length, skipn_length. split; [lia|]. split; [lia|].
    rewrite <- (firstn_skipn 32 blob) at 4. f_equal.
    rewrite <- (firstn_skipn 24 (skipn 32 blob)) at 2. f_equal.
    clear. revert blob. assert (forall a b (l : bytes), skipn a (skipn b l) = skipn (b + a) l).
    { intros a b. induction b; intros l; simpl; auto. destruct l; auto. now rewrite skipn_nil. }
    intros blob. now rewrite H.
  - destruct (Nat.ltb_spec (length blob) 56); [auto|lia].
  - destruct (Nat.ltb_spec (length blob) 24); [lia|].
    exists (firstn 24 blob), (skipn 24 blob).
    split; [reflexivity|]. rewrite !firstn_length. split; [lia|]. apply firstn_skipn.
  - destruct (Nat.ltb_spec (length blob) 24); [auto|lia].
Qed.
Print Assumptions C07_pack_unpack.

(** Whoever knows the password gets the shared data back (secretbox opens what it
    sealed). *)
Theorem C07_share_accept : forall scrypt seal unseal salt nonce password data,
  (forall k n m, unseal k n (seal k n m) = Some m) ->
  length salt = 32 -> length nonce = 24 ->
  accept scrypt unseal password (share scrypt seal salt nonce password data) = Ok data.
Proof.
  intros scrypt seal unseal salt nonce password data Hbox Hs Hn. unfold accept, share, new_key, encrypt.
  destruct (C07_unpack_pack salt nonce (seal (derive_key scrypt password salt) nonce data) Hs Hn) as [-> _].
  unfold decrypt. now rewrite Hbox.
Qed.
Print Assumptions C07_share_accept.

(** A toy secretbox, used as a concrete case here and later. *)
Definition toy_seal (k n m : bytes) : bytes := k ++ n ++ m.
Definition toy_unseal (k n b : bytes) : option bytes :=
  if eqb (firstn (length (k ++ n)) b) (k ++ n) then Some (skipn (length (k ++ n)) b) else None.
Example toy_box : forall k n m, toy_unseal k n (toy_seal k n m) = Some m.
Proof.
  intros k n m. unfold toy_unseal, toy_seal. rewrite app_assoc.
  rewrite firstn_app_all by auto. rewrite eqb_refl. now rewrite skipn_app_all.
Qed.
Example share_case :
  accept (fun p s => p ++ s) toy_unseal (bs "pass")
    (share (fun p s => p ++ s) toy_seal (repeat 1%N 32) (repeat 2%N 24) (bs "pass") (bs "me")) = Ok (bs "me") /\
  accept (fun p s => p ++ s) toy_unseal (bs "wrong")
    (share (fun p s => p ++ s) toy_seal (repeat 1%N 32) (repeat 2%N 24) (bs "pass") (bs "me")) = Err tt.
Proof. split; reflexivity. Qed.

(** * C51: short key exchange payloads crash the client *)

(** Step 2 and step 3 of the client to client key exchange crash exactly on these
    payload lengths. *)
Theorem C51_short_payload : forall unseal keys decap payload,
  (step3_open unseal keys payload = Panic <-> length payload < 24) /\
  (step2_open unseal keys payload = Panic <-> 0 < length payload < 24) /\
  (step2_directory_open unseal decap payload = Panic <->
     1047 <= length payload < 1071 /\ decap (firstn 1047 payload) <> None).
Proof.
  intros unseal keys decap payload.
  assert (Ht : forall ks n d, try_keys unseal ks n d <> Panic).
  { intros ks n d. induction ks as [|k ks IH]; simpl; [discriminate|].
    unfold decrypt. destruct (unseal k n d); [discriminate|auto]. }
  assert (H3 : forall b, step3_open unseal keys b = Panic <-> length b < 24).
  { intros b. unfold step3_open, unpack_nonce.
    destruct (Nat.ltb_spec (length b) 24) as [H|H]; split; intros E; auto; try lia.
    now apply Ht in E. }
  split; [auto|]. split.
  - unfold step2_open. destruct payload as [|x p]; [split; [discriminate|simpl; lia]|].
    rewrite H3. simpl. lia.
  - unfold step2_directory_open. destruct (Nat.ltb_spec (length payload) 1047) as [H|H].
    { split; [discriminate|lia]. }
    destruct (decap (firstn 1047 payload)) as [k|].
    + unfold unpack_nonce. rewrite skipn_length.
      destruct (Nat.ltb_spec (length payload - 1047) 24) as [H'|H'].
      * split; auto. intros _. split; [lia|discriminate].
      * split; [|lia]. unfold decrypt. now destruct (unseal _ _ _).
    + split; [discriminate|]. intros [_ E]. congruence.
Qed.
Print Assumptions C51_short_payload.

(** When some stored key opens the payload and no other key opens anything else
    from it, the exchange data comes back whatever the order of the keys. *)
Theorem C51_right_key : forall seal unseal keys key nonce data,
  (forall k n m, unseal k n (seal k n m) = Some m) ->
  (forall k m, k <> key -> unseal k nonce (seal key nonce data) = Some m -> False) ->
  length nonce = 24 -> In key keys ->
  step3_open unseal keys (pack_nonce nonce (seal key nonce data)) = Ok data.
Proof.
  intros seal unseal keys key nonce data Hbox Hother Hn Hin.
  unfold step3_open, unpack_nonce, pack_nonce.
  destruct (Nat.ltb_spec (length (nonce ++ seal key nonce data)) 24) as [H|H].
  { rewrite app_length in H. lia. }
  rewrite firstn_app_all, skipn_app_all by auto.
  induction keys as [|k ks IH]; [destruct Hin|].
  simpl. unfold decrypt. destruct (EqB_dec k key) as [->|Hne].
  - now rewrite Hbox.
  - destruct (unseal k nonce (seal key nonce data)) as [m|] eqn:E.
    + now destruct (Hother k m Hne).
    + destruct Hin as [->|Hin]; [congruence|]. now apply IH.
Qed.
Print Assumptions C51_right_key.
Example right_key_case :
  step3_open toy_unseal [repeat 3%N 32; repeat 4%N 32]
    (pack_nonce (repeat 2%N 24) (toy_seal (repeat 4%N 32) (repeat 2%N 24) (bs "kx"))) = Ok (bs "kx").
Proof. reflexivity. Qed.

(** * C08: identities *)

Section Identity.
Variable sha256 : bytes -> bytes.
Variable sign : bytes -> bytes -> bytes.
Variable verify_sig : bytes -> bytes -> bytes -> bool.
Variable keypair : bytes -> bytes -> Prop.   (* public, private signing key *)

(** What a valid identity is, in the words of the documentation. *)
Definition valid_identity (p : PublicIdentity) : Prop :=
  PublicIdentity_Digest p =
    sha256 (PublicIdentity_Name p ++ PublicIdentity_Nick p ++ PublicIdentity_SigKey p ++
            PublicIdentity_Key p ++ PublicIdentity_Identity p) /\
  verify_sig (PublicIdentity_SigKey p) (PublicIdentity_Digest p) (PublicIdentity_Signature p) = true.

Lemma verify_valid p : verify sha256 verify_sig p = true <-> valid_identity p.
Proof.
  unfold verify, valid_identity, digest_input. destruct (eqb_spec (PublicIdentity_Digest p)
    (sha256 (PublicIdentity_Name p ++ PublicIdentity_Nick p ++ PublicIdentity_SigKey p ++
            PublicIdentity_Key p ++ PublicIdentity_Identity p))) as [H|H].
  - tauto.
  - split; [discriminate|]. tauto.
Qed.

Lemma recalculate_ok fi :
  (forall pub priv m, keypair pub priv -> verify_sig pub m (sign priv m) = true) ->
  keypair (PublicIdentity_SigKey (FullIdentity_Public fi)) (FullIdentity_PrivateSigKey fi) ->
  exists fi', recalculate_digest sha256 sign verify_sig fi = Ok fi' /\
    valid_identity (FullIdentity_Public fi') /\
    PublicIdentity_Name (FullIdentity_Public fi') = PublicIdentity_Name (FullIdentity_Public fi) /\
    PublicIdentity_Nick (FullIdentity_Public fi') = PublicIdentity_Nick (FullIdentity_Public fi) /\
    PublicIdentity_SigKey (FullIdentity_Public fi') = PublicIdentity_SigKey (FullIdentity_Public fi) /\
    PublicIdentity_Key (FullIdentity_Public fi') = PublicIdentity_Key (FullIdentity_Public fi) /\
    PublicIdentity_Identity (FullIdentity_Public fi') = PublicIdentity_Identity (FullIdentity_Public fi) /\
    FullIdentity_PrivateSigKey fi' = FullIdentity_PrivateSigKey fi /\
    FullIdentity_PrivateKey fi' = FullIdentity_PrivateKey fi.
Proof.
  intros Hlaw Hk. unfold recalculate_digest. cbv zeta.
  match goal with |- context [verify _ _ ?q] => assert (Hv : verify sha256 verify_sig q = true) end.
  { apply verify_valid. split; cbn; auto. }
  rewrite Hv. eexists. split; [reflexivity|]. apply verify_valid in Hv.
  cbn. repeat split; apply Hv.
Qed.
End Identity.

(** A new identity is valid, carries the given name, nick and keys, and its
    identity is the hash of its encryption key. *)
Theorem C08_new : forall sha256 sign verify_sig (keypair : bytes -> bytes -> Prop) sig_pub sig_priv ntru_pub ntru_priv name nick,
  (forall pub priv m, keypair pub priv -> verify_sig pub m (sign priv m) = true) ->
  keypair sig_pub sig_priv ->
  exists fi, new_identity sha256 sign verify_sig sig_pub sig_priv ntru_pub ntru_priv name nick = Ok fi /\
    valid_identity sha256 verify_sig (FullIdentity_Public fi) /\
    PublicIdentity_Name (FullIdentity_Public fi) = name /\
    PublicIdentity_Nick (FullIdentity_Public fi) = nick /\
    PublicIdentity_SigKey (FullIdentity_Public fi) = sig_pub /\
    PublicIdentity_Key (FullIdentity_Public fi) = ntru_pub /\
    PublicIdentity_Identity (FullIdentity_Public fi) = sha256 ntru_pub.
Proof.
  intros sha256 sign verify_sig keypair sp sk np nk name nick Hlaw Hk. unfold new_identity.
  destruct (recalculate_ok sha256 sign verify_sig keypair
    (mkFullIdentity (mkPublicIdentity name nick sp np (sha256 np) (repeat 0%N 32) (repeat 0%N 64)) sk nk)
    Hlaw Hk) as (fi & E & H1 & H2 & H3 & H4 & H5 & H6 & _).
  exists fi. tauto.
Qed.
Print Assumptions C08_new.

(** After a change of name and nick, RecalculateDigest gives a valid identity with
    the new names and everything else unchanged. *)
Theorem C08_rename : forall sha256 sign verify_sig (keypair : bytes -> bytes -> Prop) fi name nick,
  (forall pub priv m, keypair pub priv -> verify_sig pub m (sign priv m) = true) ->
  keypair (PublicIdentity_SigKey (FullIdentity_Public fi)) (FullIdentity_PrivateSigKey fi) ->
  exists fi', recalculate_digest sha256 sign verify_sig (rename fi name nick) = Ok fi' /\
    valid_identity sha256 verify_sig (FullIdentity_Public fi') /\
    PublicIdentity_Name (FullIdentity_Public fi') = name /\
    PublicIdentity_Nick (FullIdentity_Public fi') = nick /\
    PublicIdentity_SigKey (FullIdentity_Public fi') = PublicIdentity_SigKey (FullIdentity_Public fi) /\
    PublicIdentity_Key (FullIdentity_Public fi') = PublicIdentity_Key (FullIdentity_Public fi) /\
    PublicIdentity_Identity (FullIdentity_Public fi') = PublicIdentity_Identity (FullIdentity_Public fi) /\
    FullIdentity_PrivateSigKey fi' = FullIdentity_PrivateSigKey fi /\
    FullIdentity_PrivateKey fi' = FullIdentity_PrivateKey fi.
Proof.
  intros sha256 sign verify_sig keypair fi name nick Hlaw Hk.
  exact (recalculate_ok sha256 sign verify_sig keypair (rename fi name nick) Hlaw Hk).
Qed.
Print Assumptions C08_rename.

(** A valid public identity survives marshalling, and unmarshalling any bytes
    gives only valid identities; a full identity survives marshalling but is not
    checked. *)
Theorem C08_marshal : forall sha256 verify_sig,
  (forall p, PublicIdentity_ok 0 p -> valid_identity sha256 verify_sig p ->
     unmarshal_public sha256 verify_sig (marshal_public p) = Ok p) /\
  (forall data p, unmarshal_public sha256 verify_sig data = Ok p -> valid_identity sha256 verify_sig p) /\
  (forall data, unmarshal_public sha256 verify_sig data <> Panic) /\
  (forall fi, FullIdentity_ok 0 fi -> unmarshal_full (marshal_full fi) = Ok fi).
Proof.
  intros sha256 verify_sig. split; [|split; [|split]].
  - intros p Hp Hv. unfold unmarshal_public, marshal_public.
    destruct good_PublicIdentity as (R & _). rewrite <- (app_nil_r (enc _ p)), R by auto.
    apply verify_valid in Hv. now rewrite Hv.
  - intros data p. unfold unmarshal_public.
    destruct (dec PublicIdentity_codec 0 data) as [[q r]|]; [|discriminate].
    destruct (verify sha256 verify_sig q) eqn:E; [|discriminate].
    intros H. injection H as <-. now apply verify_valid.
  - intros data. unfold unmarshal_public.
    destruct (dec PublicIdentity_codec 0 data) as [[q r]|]; [|discriminate].
    destruct (verify sha256 verify_sig q); discriminate.
  - intros fi Hf. unfold unmarshal_full, marshal_full.
    destruct good_FullIdentity as (R & _). now rewrite <- (app_nil_r (enc _ fi)), R.
Qed.
Print Assumptions C08_marshal.

(** * C09: what an identity binds *)

Lemma app_suffix {A} (a b x y : list A) : length x = length y -> a ++ x = b ++ y -> a = b /\ x = y.
Proof.
  intros Hl E. assert (Ha : length a = length b).
  { apply (f_equal (@length A)) in E. rewrite !app_length in E. lia. }
  revert b Ha E. induction a as [|z a IH]; intros [|w b] Ha E; simpl in *; try lia; auto.
  injection E as -> E. destruct (IH b ltac:(lia) E) as [-> ->]. auto.
Qed.

(** Same digest, no collision between the two hashed texts: same keys, same
    identity, same name text. *)
Theorem C09_binds : forall sha256 verify_sig p q,
  valid_identity sha256 verify_sig p -> valid_identity sha256 verify_sig q ->
  PublicIdentity_ok 0 p -> PublicIdentity_ok 0 q ->
  PublicIdentity_Digest p = PublicIdentity_Digest q ->
  (sha256 (digest_input p) = sha256 (digest_input q) -> digest_input p = digest_input q) ->
  PublicIdentity_SigKey p = PublicIdentity_SigKey q /\
  PublicIdentity_Key p = PublicIdentity_Key q /\
  PublicIdentity_Identity p = PublicIdentity_Identity q /\
  PublicIdentity_Name p ++ PublicIdentity_Nick p = PublicIdentity_Name q ++ PublicIdentity_Nick q.
Proof.
  intros sha256 verify_sig p q [Hp _] [Hq _] (_ & _ & Lp1 & Lp2 & Lp3 & _) (_ & _ & Lq1 & Lq2 & Lq3 & _) Hd Hc.
  unfold size_ok in *.
  assert (E : digest_input p = digest_input q).
  { apply Hc. unfold digest_input. congruence. }
  unfold digest_input in E.
  rewrite !app_assoc in E. apply app_suffix in E; [|lia]. destruct E as [E ->].
  apply app_suffix in E; [|lia]. destruct E as [E ->].
  apply app_suffix in E; [|lia]. destruct E as [E ->]. auto.
Qed.
Print Assumptions C09_binds.

(** The boundary between name and nick is not bound: the last letters of the name
    can be moved to the nick without invalidating the identity. *)
Theorem C09_boundary_refuted : forall sha256 verify_sig p name1 name2,
  valid_identity sha256 verify_sig p -> PublicIdentity_Name p = name1 ++ name2 ->
  valid_identity sha256 verify_sig
    (mkPublicIdentity name1 (name2 ++ PublicIdentity_Nick p) (PublicIdentity_SigKey p)
       (PublicIdentity_Key p) (PublicIdentity_Identity p) (PublicIdentity_Digest p)
       (PublicIdentity_Signature p)).
Proof.
  intros sha256 verify_sig p n1 n2 [Hd Hs] Hn. split; cbn; auto.
  rewrite Hd, Hn. f_equal. now rewrite <- !app_assoc.
Qed.
Print Assumptions C09_boundary_refuted.

(** The owner of any signing key can make a valid identity that claims any
    encryption key and any identity value, related or not. *)
Theorem C09_identity_unbound_refuted : forall sha256 sign verify_sig (keypair : bytes -> bytes -> Prop) sig_pub sig_priv key id name nick,
  (forall pub priv m, keypair pub priv -> verify_sig pub m (sign priv m) = true) ->
  keypair sig_pub sig_priv ->
  exists p, valid_identity sha256 verify_sig p /\ PublicIdentity_Key p = key /\
    PublicIdentity_Identity p = id /\ PublicIdentity_Name p = name /\ PublicIdentity_Nick p = nick.
Proof.
  intros sha256 sign verify_sig keypair sp sk key id name nick Hlaw Hk.
  destruct (recalculate_ok sha256 sign verify_sig keypair
    (mkFullIdentity (mkPublicIdentity name nick sp key id [] []) sk [])
    Hlaw Hk) as (fi & E & H1 & H2 & H3 & H4 & H5 & H6 & _).
  exists (FullIdentity_Public fi). tauto.
Qed.
Print Assumptions C09_identity_unbound_refuted.

(** Concrete cases with a toy hash and signature. *)
Definition toy_hash (x : bytes) : bytes := firstn 32 (rev x ++ repeat 0%N 32).
Definition toy_sign (k m : bytes) : bytes := firstn 64 (k ++ m).
Definition toy_verify (k m s : bytes) : bool := eqb (firstn 64 (k ++ m)) s.
Example toy_sign_law : forall pub priv m, pub = priv -> toy_verify pub m (toy_sign priv m) = true.
Proof. intros pub priv m ->. apply eqb_refl. Qed.
Definition toy_id := new_identity toy_hash toy_sign toy_verify
  (repeat 5%N 32) (repeat 5%N 32) (repeat 6%N 1218) (repeat 7%N 1600) (bs "John Doe") (bs "jd").
Example toy_id_valid : exists fi, toy_id = Ok fi /\ verify toy_hash toy_verify (FullIdentity_Public fi) = true /\
  PublicIdentity_ok 0 (FullIdentity_Public fi).
Proof.
  eexists. split; [vm_compute; reflexivity|]. split; [vm_compute; reflexivity|].
  repeat split; try (vm_compute; reflexivity); try (now left); vm_compute; congruence.
Qed.

(** * C50: identity strings *)

Lemma from_hex_digit n : (n < 16)%N -> from_hex_char (hex_digit n) = Some n.
Proof.
  intros H. assert (In n (map N.of_nat (seq 0 16))) as Hin.
  { apply in_map_iff. exists (N.to_nat n). split; [lia|]. apply in_seq. lia. }
  simpl in Hin. repeat destruct Hin as [<-|Hin]; try reflexivity. destruct Hin.
Qed.

Lemma hex_round b : Forall is_byte b -> hex_decode (hex_encode b) = Some b.
Proof.
  induction 1 as [|x b Hx _ IH]; [reflexivity|].
  change (hex_encode (x :: b)) with (hex_digit (x / 16) :: hex_digit (x mod 16) :: hex_encode b)%N.
  unfold is_byte in Hx. cbn [hex_decode]. rewrite IH, !from_hex_digit.
  - f_equal. f_equal. pose proof (N.div_mod x 16). lia.
  - apply N.mod_lt. lia.
  - apply N.div_lt_upper_bound; lia.
Qed.

(** ASCII lower case. *)
Definition lower (c : N) : N := if ((65 <=? c) && (c <=? 90))%N then (c + 32)%N else c.

Lemma from_hex_lower c x : from_hex_char c = Some x -> lower c = hex_digit x /\ (x < 16)%N.
Proof.
  unfold from_hex_char, lower, hex_digit.
  destruct ((48 <=? c) && (c <=? 57))%N eqn:E1;
    [|destruct ((97 <=? c) && (c <=? 102))%N eqn:E2;
      [|destruct ((65 <=? c) && (c <=? 70))%N eqn:E3; [|discriminate]]];
    intros H; injection H as <-;
    destruct ((65 <=? c) && (c <=? 90))%N eqn:E4;
    match goal with |- context [if ?t then _ else _] => destruct t eqn:E5 end; lia.
Qed.

Lemma hex_decode_lower n : forall s b, length s <= n -> hex_decode s = Some b -> map lower s = hex_encode b /\ Forall is_byte b.
Proof.
  induction n as [|n IH]; intros s b Hl H.
  - destruct s; simpl in *; [|lia]. injection H as <-. auto.
  - destruct s as [|x [|y s]]; [injection H as <-; auto|discriminate|].
    cbn [hex_decode] in H. destruct (from_hex_char x) eqn:Ex; [|discriminate].
    destruct (from_hex_char y) eqn:Ey; [|discriminate].
    destruct (hex_decode s) eqn:Es; [|discriminate]. injection H as <-.
    apply from_hex_lower in Ex, Ey. destruct Ex as [Ex Hx], Ey as [Ey Hy].
    destruct (IH s l) as [H1 H2]; [simpl in Hl; lia|auto|].
    cbn [map]. change (hex_encode ((n0 * 16 + n1)%N :: l)) with
      (hex_digit ((n0 * 16 + n1) / 16) :: hex_digit ((n0 * 16 + n1) mod 16) :: hex_encode l)%N.
    rewrite N.div_add_l, N.div_small, N.add_0_r by lia.
    rewrite N.add_comm, N.mod_add, N.mod_small by lia.
    rewrite H1, Ex, Ey. split; auto. constructor; auto. unfold is_byte. lia.
Qed.

(** The printed form of an identity names it; a string is accepted exactly when it
    is, up to letter case, the printed form of a 32 byte identity, and then it
    names that identity and no other. *)
Theorem C50_id_strings :
  (forall id, length id = 32 -> Forall is_byte id -> string2id (hex_encode id) = Ok id) /\
  (forall s id, string2id s = Ok id -> length id = 32 /\ map lower s = hex_encode id) /\
  (forall s, string2id s <> Panic).
Proof.
  split; [|split].
  - intros id Hl Hb. unfold string2id. rewrite hex_round by auto. now rewrite Hl.
  - intros s id. unfold string2id. destruct (hex_decode s) as [b|] eqn:E; [|discriminate].
    destruct (Nat.eqb_spec (length b) 32) as [H|H]; [|discriminate].
    intros H'. injection H' as <-. split; auto. now apply (hex_decode_lower (length s)) in E.
  - intros s. unfold string2id. destruct (hex_decode s); [|discriminate].
    destruct (length l =? 32); discriminate.
Qed.
Print Assumptions C50_id_strings.

(** Two different strings can name the same identity. *)
Theorem C50_case_refuted : exists s t id, s <> t /\ string2id s = Ok id /\ string2id t = Ok id.
Proof.
  exists (concat (repeat (bs "ab") 32)), (concat (repeat (bs "AB") 32)), (repeat 171%N 32).
  split; [|split]; vm_compute; congruence.
Qed.
Print Assumptions C50_case_refuted.
Example id_string_case : hex_encode (repeat 171%N 2) = bs "abab" /\ string2id (bs "abab") = Err tt.
Proof. split; reflexivity. Qed.
