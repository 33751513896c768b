(** Complete key exchanges between two clients of IdkxModel.v, step by step. *)
From Verif Require Import Base XdrModel XdrProofs RpcModel RpcProofs BlobModel IdentityModel AddrModel RatchetModel RatchetProps IdkxModel IdkxProofs IdkxProps.
Local Open Scope N_scope.

(** What is needed of the cryptographic functions: boxes open under their key and
    under no other, sizes, and the law of the key encapsulation. *)
Definition laws (s : suite) (keypair : bytes -> bytes -> Prop) : Prop :=
  (forall k n m, s_unseal s k n (s_seal s k n m) = Some m) /\
  (forall k k' n m, length k = 32%nat -> length k' = 32%nat -> k <> k' -> s_unseal s k' n (s_seal s k n m) = None) /\
  (forall k n m, length k = 32%nat -> length n = 24%nat -> (length (s_seal s k n m) <= length m + 100)%nat) /\
  (forall p salt, length (s_scrypt s p salt) = 32%nat) /\
  decap_law keypair (s_encap s) (s_decap s) /\
  (forall coins pk, length (fst (s_encap s coins pk)) = 1047%nat /\ length (snd (s_encap s coins pk)) = 32%nat).

(** Draws of the right lengths, online with a tag, and a shuffling of the keys. *)
Definition ready (s : suite) (e : env) : Prop :=
  valid_point (s_base s (e_priv e)) = true /\ length (e_salt e) = 32%nat /\ length (e_nonce e) = 24%nat /\
  length (e_nonce1 e) = 24%nat /\ length (e_salt1 e) = 32%nat /\ (forall l, Permutation l (e_keys e l)) /\ e_ok e = true.

(** The two ratchets belong together. *)
Definition matched (s : suite) (a b : ratchet) : Prop :=
  root_key a = root_key b /\ send_header b = recv_header a /\ send_chain b = recv_chain a /\
  next_send_header a = next_recv_header b /\ next_send_header b = next_recv_header a /\
  recv_public a = s_base s (send_private b) /\ ratchet_flag a = true /\ ratchet_flag b = false /\
  send_count a = 0 /\ recv_count a = 0 /\ send_count b = 0 /\ recv_count b = 0.

Section Run.
Variable s : suite.
Variable keypair : bytes -> bytes -> Prop.
Hypothesis Laws : laws s keypair.

Notation fresh := (fresh (s_base s) (s_seal s) (s_scrypt s) (s_encap s)).
Notation complete := (complete_kx (s_hmac s) (s_sha s) (s_unseal s) (s_scrypt s) (s_decap s)).

Lemma small_opaque (b : bytes) : (length b <= 1000)%nat -> str_ok 0 b.
Proof. intros H. unfold str_ok, pad_len, max_int32. split; [|now left]. assert (Hm : forall x, (4 - x mod 4) mod 4 < 4) by (intros; apply N.mod_lt; lia). pose proof (Hm (N.of_nat (length b))). lia. Qed.

Lemma fresh_ok e p : ready s e -> exists r kx, fresh e p = (r, Ok kx) /\ KeyExchange_ok 0 (to_wire kx).
Proof.
  intros (V & L1 & L2 & _). destruct Laws as (_ & _ & Sz & Sc & _ & Le). unfold IdkxModel.fresh, fill_kx. cbn [kx_private new_ratchet].
  destruct (s_encap s (e_coins e) (PublicIdentity_Key p)) as [c k] eqn:E. eexists. eexists. split; [reflexivity|].
  destruct (Le (e_coins e) (PublicIdentity_Key p)) as [Lc Lk]. rewrite E in Lc, Lk. cbn [fst snd] in *.
  unfold KeyExchange_ok, to_wire. cbn [KeyExchange_Cipher KeyExchange_Public kx_cipher kx_public]. split.
  - unfold size_ok. rewrite Lc. reflexivity.
  - apply small_opaque. unfold share, new_key, derive_key, BlobModel.encrypt, pack_salt_nonce. rewrite !app_length.
    assert (Lb : length (s_base s (e_priv e)) = 32%nat).
    { unfold valid_point in V. destruct (N.eqb_spec (N.of_nat (length (s_base s (e_priv e)))) 32); [lia|discriminate]. }
    pose proof (Sz (s_scrypt s k (e_salt e)) (e_nonce e) (s_base s (e_priv e)) (Sc _ _) L2). lia.
Qed.

Lemma pair_up ea eb pa pb ska skb : ready s ea -> ready s eb ->
  keypair (PublicIdentity_Key pa) ska -> keypair (PublicIdentity_Key pb) skb ->
  exists a1 b1 kxa kxb ra rb,
    fresh ea pb = (a1, Ok kxa) /\ fresh eb pa = (b1, Ok kxb) /\
    KeyExchange_ok 0 (to_wire kxa) /\ KeyExchange_ok 0 (to_wire kxb) /\
    complete a1 ska kxb true = (ra, Ok tt) /\ complete b1 skb kxa false = (rb, Ok tt) /\ matched s ra rb.
Proof.
  intros Ra Rb Ka Kb. pose proof Ra as (Va & La1 & La2 & _). pose proof Rb as (Vb & Lb1 & Lb2 & _).
  destruct Laws as (B1 & _ & _ & _ & De & _).
  destruct (C20_key_exchange (s_hmac s) (s_sha s) (s_base s) (s_seal s) (s_unseal s) (s_scrypt s) keypair (s_encap s) (s_decap s)
    B1 De _ ska _ skb (e_priv ea) (e_priv eb) (e_coins ea) (e_coins eb) (e_salt ea) (e_salt eb) (e_nonce ea) (e_nonce eb)
    Ka Kb La1 Lb1 La2 Lb2 Va Vb) as (a1 & b1 & kxa & kxb & ra & rb & Fa & Fb & Ca & Cb & M).
  exists a1, b1, kxa, kxb, ra, rb.
  destruct (fresh_ok ea pb Ra) as (r & kx & F & O). destruct (fresh_ok eb pa Rb) as (r' & kx' & F' & O').
  unfold IdkxModel.fresh in *. rewrite Fa in F. rewrite Fb in F'.
  assert (kx = kxa) as -> by congruence. assert (kx' = kxb) as -> by congruence.
  unfold matched. tauto.
Qed.

(** The message of step 1, and the answer of step 2. *)
Definition opening (ea : env) (pa pb : PublicIdentity) (kxa : key_exchange) : bytes :=
  fst (s_encap s (e_coins1 ea) (PublicIdentity_Key pb)) ++
  pack_nonce (e_nonce1 ea) (s_seal s (snd (s_encap s (e_coins1 ea) (PublicIdentity_Key pb))) (e_nonce1 ea)
    (enc IdentityKX_codec (mkIdentityKX pa (to_wire kxa)))).
Definition answer (eb : env) (k : bytes) (kxb : key_exchange) : bytes :=
  pack_nonce (e_nonce1 eb) (s_seal s k (e_nonce1 eb) (enc KX_codec (mkKX (to_wire kxb)))).
Definition one_key (ea : env) (pb : PublicIdentity) : bytes := snd (s_encap s (e_coins1 ea) (PublicIdentity_Key pb)).

Lemma step1_run a ea pb a1 kxa : ready s ea -> fresh ea pb = (a1, Ok kxa) -> identity_exists a (ident pb) = false ->
  step1 (s_base s) (s_seal s) (s_scrypt s) (s_encap s) a ea pb =
    (half_ops pb (opening ea (public a) pb kxa) (one_key ea pb) a1, Ok tt).
Proof.
  intros (_ & _ & _ & _ & _ & _ & K) F X. unfold step1, one_key, opening, one_key.
  destruct (s_encap s (e_coins1 ea) (PublicIdentity_Key pb)) as [nc nk]. rewrite F, K, X. reflexivity.
Qed.

Lemma unpack_packed n d : length n = 24%nat -> unpack_nonce (pack_nonce n d) = Ok (n, d).
Proof.
  intros L. unfold unpack_nonce, pack_nonce. rewrite app_length. destruct (Nat.ltb_spec (length n + length d) 24); [lia|].
  rewrite <- L. now rewrite firstn_app, skipn_app, firstn_all, skipn_all, Nat.sub_diag, app_nil_r.
Qed.

Definition respond_ops (eb : env) (k : bytes) (pa : PublicIdentity) (rb : ratchet) (kxb : key_exchange) : list op :=
  [WriteId (ident pa) (marshal_public pa); WriteFull (ident pa) rb; Send false (ident pa) (answer eb k kxb); Added pa].

Lemma step2_run b eb k pa kxa b1 kxb rb : ready s eb -> PublicIdentity_ok 0 pa -> KeyExchange_ok 0 (to_wire kxa) ->
  fresh eb pa = (b1, Ok kxb) -> complete b1 (private b) kxa false = (rb, Ok tt) ->
  identity_exists b (ident pa) = false -> ident pa <> ident (public b) ->
  step2 (s_hmac s) (s_sha s) (s_base s) (s_seal s) (s_unseal s) (s_scrypt s) (s_encap s) (s_decap s) b eb k
    (enc IdentityKX_codec (mkIdentityKX pa (to_wire kxa))) = (respond_ops eb k pa rb kxb, Ok tt).
Proof.
  intros R O Ok' F C X N. unfold step2. rewrite <- (app_nil_r (enc IdentityKX_codec _)).
  destruct good_IdentityKX as (Rt & _ & _). rewrite Rt by (split; auto). cbn [IdentityKX_Identity IdentityKX_KX].
  destruct (eqb_spec (ident pa) (ident (public b))); [contradiction|]. rewrite F.
  assert (of_wire (to_wire kxa) = kxa) as -> by now destruct kxa. rewrite C, X.
  destruct R as (_ & _ & _ & _ & _ & _ & ->). reflexivity.
Qed.

Lemma push_dir b eb from ea pa kxa b1 kxb rb : ready s eb -> ready s ea -> c_dir b = true -> from <> repeat 0 32 ->
  keypair (PublicIdentity_Key (public b)) (private b) ->
  PublicIdentity_ok 0 pa -> KeyExchange_ok 0 (to_wire kxa) ->
  fresh eb pa = (b1, Ok kxb) -> complete b1 (private b) kxa false = (rb, Ok tt) ->
  identity_exists b from = false -> identity_exists b (ident pa) = false -> ident pa <> ident (public b) ->
  reaction s b eb (Push false from (opening ea pa (public b) kxa)) = (respond_ops eb (one_key ea (public b)) pa rb kxb, Ok tt).
Proof.
  intros Rb Ra Di Nz K O Ok' F C Xf X N. unfold reaction. cbn [react]. unfold handle_push.
  destruct (eqb_spec from (repeat 0 32)); [contradiction|]. rewrite Xf, Di. cbn [negb]. cbv iota.
  destruct Laws as (B1 & _ & _ & _ & De & Le). destruct (Le (e_coins1 ea) (PublicIdentity_Key (public b))) as [L1 _].
  unfold step2_directory, opening. rewrite app_length. destruct (Nat.ltb_spec (length (fst (s_encap s (e_coins1 ea) (PublicIdentity_Key (public b)))) +
    length (pack_nonce (e_nonce1 ea) (s_seal s (snd (s_encap s (e_coins1 ea) (PublicIdentity_Key (public b)))) (e_nonce1 ea) (enc IdentityKX_codec (mkIdentityKX pa (to_wire kxa)))))) 1047); [lia|].
  rewrite <- L1, firstn_app, skipn_app, firstn_all, skipn_all, Nat.sub_diag. cbn [firstn skipn app]. rewrite app_nil_r.
  rewrite (De (e_coins1 ea) _ (private b) K). rewrite unpack_packed by apply Ra. rewrite B1. now apply step2_run with (b1 := b1).
Qed.

Lemma first_key_run keys k n m : In k keys -> Forall (fun k => length k = 32%nat) keys ->
  first_key (s_unseal s) keys n (s_seal s k n m) = Some (k, m).
Proof.
  destruct Laws as (B1 & B2 & _). induction keys as [|k0 ks IH]; [contradiction|]. intros H A. inversion A as [|? ? L0 A']; subst.
  cbn [first_key]. assert (Lk : length k = 32%nat) by (rewrite Forall_forall in A; auto).
  destruct (eqb_spec k0 k) as [->|Hne]; [now rewrite B1|]. rewrite B2 by auto. destruct H; [congruence|auto].
Qed.

Lemma keys_shuffled e keys k n m : ready s e -> In k keys -> Forall (fun k => length k = 32%nat) keys ->
  first_key (s_unseal s) (e_keys e keys) n (s_seal s k n m) = Some (k, m).
Proof.
  intros (_ & _ & _ & _ & _ & P & _) H A. apply first_key_run; [eapply Permutation_in; eauto|].
  rewrite Forall_forall in *. intros x Hx. apply A. eapply Permutation_in; [apply Permutation_sym, P|auto].
Qed.

Lemma push_password b eb from ea k pa kxa b1 kxb rb : ready s eb -> ready s ea -> c_dir b = false -> from <> repeat 0 32 ->
  In k (c_keys b) -> Forall (fun k => length k = 32%nat) (c_keys b) ->
  PublicIdentity_ok 0 pa -> KeyExchange_ok 0 (to_wire kxa) ->
  fresh eb pa = (b1, Ok kxb) -> complete b1 (private b) kxa false = (rb, Ok tt) ->
  identity_exists b from = false -> identity_exists b (ident pa) = false -> ident pa <> ident (public b) ->
  reaction s b eb (Push false from (pack_nonce (e_nonce1 ea) (s_seal s k (e_nonce1 ea) (enc IdentityKX_codec (mkIdentityKX pa (to_wire kxa)))))) =
    (respond_ops eb k pa rb kxb, Ok tt).
Proof.
  intros Rb Ra Di Nz Hk Hl O Ok' F C Xf X N. unfold reaction. cbn [react]. unfold handle_push.
  destruct (eqb_spec from (repeat 0 32)); [contradiction|]. rewrite Xf, Di. cbn [negb]. cbv iota.
  unfold step2_password. assert (L : length (e_nonce1 ea) = 24%nat) by apply Ra.
  destruct (pack_nonce (e_nonce1 ea) _) as [|x y] eqn:E.
  { unfold pack_nonce in E. apply app_eq_nil in E as [E _]. rewrite E in L. discriminate. }
  rewrite <- E, unpack_packed, keys_shuffled by auto. now apply step2_run with (b1 := b1).
Qed.

Lemma push_answer a ea eb k pb a1 kxb ra : ready s ea -> ready s eb -> PublicIdentity_ok 0 pb -> ident pb <> repeat 0 32 ->
  f_id (fget a (ident pb)) = Some (marshal_public pb) -> f_half (fget a (ident pb)) = Some a1 -> f_full (fget a (ident pb)) = None ->
  In k (c_keys a) -> Forall (fun k => length k = 32%nat) (c_keys a) -> KeyExchange_ok 0 (to_wire kxb) ->
  complete a1 (private a) kxb true = (ra, Ok tt) -> verify (s_sha s) (s_verify s) pb = true ->
  reaction s a ea (Push false (ident pb) (answer eb k kxb)) =
    ([WriteFull (ident pb) ra; DropHalf (ident pb); Added pb], Ok tt).
Proof.
  intros Ra Rb O Nz Fi Fh Ff Hk Hl Ok' C V. unfold reaction. cbn [react]. unfold handle_push.
  destruct (eqb_spec (ident pb) (repeat 0 32)); [contradiction|].
  assert (identity_exists a (ident pb) = true) as -> by (unfold identity_exists; rewrite Fi, Fh; now destruct (f_full (fget a (ident pb)))).
  assert (ratchet_exists a (ident pb) = false) as -> by (unfold ratchet_exists; now rewrite Ff). cbn [negb]. cbv iota.
  unfold step3, answer. rewrite unpack_packed by apply Rb. rewrite keys_shuffled by auto.
  rewrite <- (app_nil_r (enc KX_codec _)). destruct good_KX as (Rt & _ & _). rewrite Rt by exact Ok'. cbn [KX_KX].
  unfold load_ratchet. rewrite Fh, Fi, (dec_marshal pb O). assert (of_wire (to_wire kxb) = kxb) as -> by now destruct kxb.
  rewrite C. unfold load_identity. rewrite fget_ops. cbn [effects fold_left effect].
  destruct (eqb_spec (ident pb) (ident pb)); [|congruence]. cbn [f_id]. rewrite Fi. unfold unmarshal_public.
  rewrite (dec_marshal pb O), V. destruct (eqb_spec (ident pb) (ident pb)); [|congruence]. reflexivity.
Qed.

Lemma keys_ops l : forall c, c_keys (apply_ops c l) = c_keys c ++ flat_map (fun o => match o with SaveKey k => [k] | _ => [] end) l.
Proof.
  induction l as [|o l IH]; intros c; [cbn; now rewrite app_nil_r|]. unfold apply_ops in *. cbn [fold_left flat_map]. rewrite IH.
  destruct o; cbn [apply_op c_keys app]; try reflexivity. now rewrite <- app_assoc.
Qed.
Lemma out_ops l : forall c, c_out (apply_ops c l) = c_out c ++ flat_map (fun o => match o with Send cl to x => [(cl, to, x)] | _ => [] end) l.
Proof.
  induction l as [|o l IH]; intros c; [cbn; now rewrite app_nil_r|]. unfold apply_ops in *. cbn [fold_left flat_map]. rewrite IH.
  destruct o; cbn [apply_op c_out app]; try reflexivity. now rewrite <- app_assoc.
Qed.
Lemma added_ops l : forall c, c_added (apply_ops c l) = c_added c ++ flat_map (fun o => match o with Added p => [p] | _ => [] end) l.
Proof.
  induction l as [|o l IH]; intros c; [cbn; now rewrite app_nil_r|]. unfold apply_ops in *. cbn [fold_left flat_map]. rewrite IH.
  destruct o; cbn [apply_op c_added app]; try reflexivity. now rewrite <- app_assoc.
Qed.
End Run.
