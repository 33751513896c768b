(** Proofs about saving and loading a ratchet. *)
From Verif Require Import Base XdrModel RpcModel RatchetModel RatchetProofs.
Local Open Scope N_scope.

(** * Specification *)

Definition expired (now lifetime : Z) (k : saved_key) : bool := (lifetime <? now - sk_time k)%Z.

(** The ratchet without its expired keys. *)
Definition purge (now lifetime : Z) (r : ratchet) : ratchet :=
  set_saved r (map (fun e => (fst e, filter (fun nk => negb (expired now lifetime (snd nk))) (snd e))) (saved r)).

(** Equal up to the time stamps of saved keys. *)
Definition same_keys (a b : key_map) : Prop :=
  Forall2 (fun x y => fst x = fst y /\ sk_key (snd x) = sk_key (snd y)) a b.
Definition same_saved (a b : saved_map) : Prop :=
  Forall2 (fun x y => fst x = fst y /\ same_keys (snd x) (snd y)) a b.
Definition same (a b : ratchet) : Prop :=
  root_key a = root_key b /\ send_header a = send_header b /\ recv_header a = recv_header b /\
  next_send_header a = next_send_header b /\ next_recv_header a = next_recv_header b /\
  send_chain a = send_chain b /\ recv_chain a = recv_chain b /\ send_private a = send_private b /\
  recv_public a = recv_public b /\ send_count a = send_count b /\ recv_count a = recv_count b /\
  prev_count a = prev_count b /\ ratchet_flag a = ratchet_flag b /\ same_saved (saved a) (saved b) /\
  my_half a = my_half b /\ their_half a = their_half b /\ kx_private a = kx_private b.

(** Keys are 32 bytes, map keys distinct. *)
Definition half_ok (h : option bytes) : Prop := match h with Some k => length k = 32%nat | None => True end.
Definition ratchet_ok (r : ratchet) : Prop :=
  length (root_key r) = 32%nat /\ length (send_header r) = 32%nat /\ length (recv_header r) = 32%nat /\
  length (next_send_header r) = 32%nat /\ length (next_recv_header r) = 32%nat /\
  length (send_chain r) = 32%nat /\ length (recv_chain r) = 32%nat /\ length (send_private r) = 32%nat /\
  length (recv_public r) = 32%nat /\
  half_ok (my_half r) /\ half_ok (their_half r) /\ half_ok (kx_private r) /\
  NoDup (mkeys (saved r)) /\
  Forall (fun e => length (fst e) = 32%nat /\ NoDup (mkeys (snd e)) /\
                   Forall (fun nk => length (sk_key (snd nk)) = 32%nat) (snd e)) (saved r).

(** * Proofs *)

Lemma unmarshal_keys_spec l : forall m, Forall (fun k => length (SavedMessageKey_Key k) = 32%nat) l ->
  NoDup (mkeys m ++ map SavedMessageKey_Num l) ->
  unmarshal_keys l m = Some (m ++ map (fun k => (SavedMessageKey_Num k,
      mkSaved (SavedMessageKey_Key k) (SavedMessageKey_CreationTime k * 1000000000)%Z)) l).
Proof.
  induction l as [|k l IH]; intros m F D; cbn [unmarshal_keys map].
  - now rewrite app_nil_r.
  - inversion F as [|? ? F1 F2]; subst. unfold is32. rewrite F1. change (N.of_nat 32 =? 32) with true. cbv iota.
    assert (Hni : ~ In (SavedMessageKey_Num k) (mkeys m)).
    { intros X. cbn [map] in D. apply NoDup_remove_2 in D. apply D. apply in_or_app. auto. }
    rewrite mset_fresh by auto. rewrite IH; auto.
    + rewrite <- app_assoc. reflexivity.
    + cbn [map] in D. unfold mkeys in *. rewrite map_app. cbn [map fst]. rewrite <- app_assoc. exact D.
Qed.

Lemma unmarshal_saved_spec l : forall sv,
  Forall (fun s => length (SavedKeys_HeaderKey s) = 32%nat /\
                   Forall (fun k => length (SavedMessageKey_Key k) = 32%nat) (SavedKeys_MessageKeys s) /\
                   NoDup (map SavedMessageKey_Num (SavedKeys_MessageKeys s))) l ->
  NoDup (mkeys sv ++ map SavedKeys_HeaderKey l) ->
  unmarshal_saved l sv = Some (sv ++ map (fun s => (SavedKeys_HeaderKey s,
     map (fun k => (SavedMessageKey_Num k,
      mkSaved (SavedMessageKey_Key k) (SavedMessageKey_CreationTime k * 1000000000)%Z)) (SavedKeys_MessageKeys s))) l).
Proof.
  induction l as [|s l IH]; intros sv F D; cbn [unmarshal_saved map].
  - now rewrite app_nil_r.
  - inversion F as [|? ? (F1 & F2 & F3) F4]; subst. unfold is32. rewrite F1. change (N.of_nat 32 =? 32) with true. cbv iota.
    rewrite unmarshal_keys_spec by auto. cbn [app].
    assert (Hni : ~ In (SavedKeys_HeaderKey s) (mkeys sv)).
    { intros X. cbn [map] in D. apply NoDup_remove_2 in D. apply D. apply in_or_app. auto. }
    rewrite mset_fresh by auto. rewrite IH; auto.
    + rewrite <- app_assoc. reflexivity.
    + cbn [map] in D. unfold mkeys in *. rewrite map_app. cbn [map fst]. rewrite <- app_assoc. exact D.
Qed.

Lemma NoDup_map_filter {A B} (f : A -> B) g l : NoDup (map f l) -> NoDup (map f (filter g l)).
Proof.
  induction l as [|x l IH]; cbn [map filter]; auto. intros D. inversion D as [|? ? D1 D2]; subst.
  destruct (g x); auto. cbn [map]. constructor; auto. rewrite in_map_iff in *. intros (y & Hy & Hf).
  apply filter_In in Hf. apply D1. exists y. tauto.
Qed.

Lemma unmarshal_opt_dup h : half_ok h -> unmarshal_opt (dup32 h) = Ok h.
Proof.
  destruct h as [k|]; [|reflexivity]. unfold half_ok, dup32, unmarshal_opt, is32. intros H.
  destruct k as [|x k]; [discriminate|]. rewrite H. reflexivity.
Qed.

Lemma is32_ok b : length b = 32%nat -> is32 b = true.
Proof. unfold is32. now intros ->. Qed.

Lemma same_restored now lifetime (sv : saved_map) :
  same_saved
    (map (fun s => (SavedKeys_HeaderKey s,
       map (fun k => (SavedMessageKey_Num k,
         mkSaved (SavedMessageKey_Key k) (SavedMessageKey_CreationTime k * 1000000000)%Z)) (SavedKeys_MessageKeys s)))
      (map (fun e => mkSavedKeys (fst e)
            (map (fun nk => mkSavedMessageKey (fst nk) (sk_key (snd nk)) (unix (sk_time (snd nk))))
               (filter (fun nk => negb (lifetime <? now - sk_time (snd nk))%Z) (snd e)))) sv))
    (map (fun e => (fst e, filter (fun nk => negb (expired now lifetime (snd nk))) (snd e))) sv).
Proof.
  induction sv as [|[hk keys] sv IH]; cbn [map]; constructor; auto. cbn [fst snd SavedKeys_HeaderKey SavedKeys_MessageKeys].
  split; auto. rewrite map_map. unfold expired. generalize (filter (fun nk : N * saved_key => negb (lifetime <? now - sk_time (snd nk))%Z) keys).
  intros l. induction l as [|[n k] l IHl]; cbn [map]; constructor; auto.
Qed.

Lemma restore r0 now lifetime r : ratchet_ok r -> saved r0 = [] -> (kx_private r0 = None -> kx_private r = None) ->
  exists r', unmarshal r0 (marshal now lifetime r) = Ok r' /\ same r' (purge now lifetime r) /\
    saved r' = map (fun e => (fst e,
      map (fun nk => (fst nk, mkSaved (sk_key (snd nk)) (unix (sk_time (snd nk)) * 1000000000)%Z))
        (filter (fun nk => negb (expired now lifetime (snd nk))) (snd e)))) (saved r).
Proof.
  intros (L1 & L2 & L3 & L4 & L5 & L6 & L7 & L8 & L9 & H1 & H2 & H3 & D & F) S0 K.
  unfold unmarshal, marshal. cbn [RatchetState_RootKey RatchetState_SendHeaderKey RatchetState_RecvHeaderKey
    RatchetState_NextSendHeaderKey RatchetState_NextRecvHeaderKey RatchetState_SendChainKey RatchetState_RecvChainKey
    RatchetState_SendRatchetPrivate RatchetState_RecvRatchetPublic RatchetState_SendCount RatchetState_RecvCount
    RatchetState_PrevSendCount RatchetState_Ratchet RatchetState_Private RatchetState_MyHalf RatchetState_TheirHalf
    RatchetState_SavedKeys].
  rewrite !is32_ok by auto. cbn [andb]. rewrite !unmarshal_opt_dup by auto. rewrite S0.
  rewrite unmarshal_saved_spec.
  - cbn [app].
    assert (X : forall y, match kx_private r, kx_private r0 with Some _, None => Panic | _, _ => Ok y end = @Ok unit ratchet y).
    { intros y. destruct (kx_private r) eqn:Q, (kx_private r0) eqn:Q0; auto. discriminate (K eq_refl). }
    rewrite X. eexists. split; [reflexivity|]. split.
    + unfold same, purge. cbn [set_saved root_key send_header recv_header next_send_header next_recv_header send_chain recv_chain
        send_private recv_public send_count recv_count prev_count ratchet_flag saved my_half their_half kx_private].
      repeat match goal with |- _ /\ _ => split end; try reflexivity. apply same_restored.
    + cbn [saved]. rewrite map_map. apply map_ext. intros [hk keys]. cbn [fst snd SavedKeys_HeaderKey SavedKeys_MessageKeys].
      f_equal. rewrite map_map. reflexivity.
  - rewrite Forall_map. apply Forall_forall. intros [hk keys] Hin. rewrite Forall_forall in F.
    destruct (F _ Hin) as (F1 & F2 & F3). cbn [fst snd SavedKeys_HeaderKey SavedKeys_MessageKeys] in *. split; auto. split.
    + rewrite Forall_map. apply Forall_forall. intros nk Hnk. apply filter_In in Hnk. rewrite Forall_forall in F3.
      cbn [SavedMessageKey_Key]. apply F3, Hnk.
    + rewrite map_map. cbn [SavedMessageKey_Num]. now apply NoDup_map_filter.
  - cbn [mkeys map app]. rewrite map_map. exact D.
Qed.

(** ** Ratchets with the same keys behave alike *)

Lemma same_mget_keys a b n : same_keys a b ->
  match mget a n, mget b n with Some x, Some y => sk_key x = sk_key y | None, None => True | _, _ => False end.
Proof.
  induction 1 as [|[n1 k1] [n2 k2] a b [H1 H2] H IH]; cbn [mget]; auto. cbn [fst snd] in *. subst n2.
  destruct (eqb n n1); auto.
Qed.

Lemma same_mget a b k : same_saved a b ->
  match mget a k, mget b k with Some x, Some y => same_keys x y | None, None => True | _, _ => False end.
Proof.
  induction 1 as [|[n1 k1] [n2 k2] a b [H1 H2] H IH]; cbn [mget]; auto. cbn [fst snd] in *. subst n2.
  destruct (eqb k n1); auto.
Qed.

Lemma same_mdel_keys a b n : same_keys a b -> same_keys (mdel a n) (mdel b n).
Proof.
  unfold mdel. induction 1 as [|[n1 k1] [n2 k2] a b [H1 H2] H IH]; cbn [filter fst]; [constructor|]. cbn [fst snd] in *. subst n2.
  destruct (negb (eqb n n1)); auto. constructor; auto.
Qed.

Lemma same_mdel a b n : same_saved a b -> same_saved (mdel a n) (mdel b n).
Proof.
  unfold mdel. induction 1 as [|[n1 k1] [n2 k2] a b [H1 H2] H IH]; cbn [filter fst]; [constructor|]. cbn [fst snd] in *. subst n2.
  destruct (negb (eqb n n1)); auto. constructor; auto.
Qed.

Lemma same_mset_keys a b n x y : same_keys a b -> sk_key x = sk_key y -> same_keys (mset a n x) (mset b n y).
Proof.
  intros H E. induction H as [|[n1 k1] [n2 k2] a b [H1 H2] H IH]; cbn [mset]; [constructor; [auto|constructor]|].
  cbn [fst snd] in *. subst n2. destruct (eqb n n1); constructor; auto.
Qed.

Lemma same_mset a b n x y : same_saved a b -> same_keys x y -> same_saved (mset a n x) (mset b n y).
Proof.
  intros H E. induction H as [|[n1 k1] [n2 k2] a b [H1 H2] H IH]; cbn [mset]; [constructor; [auto|constructor]|].
  cbn [fst snd] in *. subst n2. destruct (eqb n n1); constructor; auto.
Qed.

Section Behave.
Variable hmac : bytes -> bytes -> bytes.
Variable sha256 : bytes -> bytes.
Variable x25519 : bytes -> bytes -> option bytes.
Variable base : bytes -> bytes.
Variable seal : bytes -> bytes -> bytes -> bytes.
Variable unseal : bytes -> bytes -> bytes -> option bytes.

Lemma same_try order ct : forall a b, same_saved a b ->
  match try_saved unseal order a ct, try_saved unseal order b ct with
  | Some (a', m), Some (b', m') => same_saved a' b' /\ m = m'
  | None, None => True
  | _, _ => False
  end.
Proof.
  induction order as [|hk order IH]; intros a b H; cbn [try_saved]; auto.
  pose proof (same_mget a b hk H) as G. destruct (mget a hk) as [x|], (mget b hk) as [y|]; try contradiction.
  - destruct (unseal hk (ct_nonce ct) (ct_header ct)) as [h|]; [|now apply IH].
    destruct (negb _); [now apply IH|]. pose proof (same_mget_keys x y (h_num h) G) as K.
    destruct (mget x (h_num h)) as [kx|], (mget y (h_num h)) as [ky|]; try contradiction; auto.
    rewrite K. destruct (unseal (sk_key ky) (h_nonce h) (ct_body ct)) as [m|]; auto. split; auto.
    pose proof (same_mdel_keys x y (h_num h) G) as D. destruct D; [now apply same_mdel|].
    apply same_mset; auto. now constructor.
  - now apply IH.
Qed.

Lemma same_loop now now' num : forall fuel n ck mk a b, same_keys a b ->
  match save_loop hmac fuel n num now ck mk a, save_loop hmac fuel n num now' ck mk b with
  | Some (c, m, ks), Some (c', m', ks') => c = c' /\ m = m' /\ same_keys ks ks'
  | None, None => True
  | _, _ => False
  end.
Proof.
  induction fuel as [|fuel IH]; intros n ck mk a b H; cbn [save_loop]; auto.
  destruct (n <=? num); [|auto]. apply IH. destruct (n <? num); auto. now apply same_mset_keys.
Qed.

Lemma same_save_keys now now' ck num count :
  match save_keys hmac now ck num count, save_keys hmac now' ck num count with
  | Keys c m ks, Keys c' m' ks' => c = c' /\ m = m' /\ same_keys ks ks'
  | Refused, Refused | Forever, Forever => True
  | _, _ => False
  end.
Proof.
  unfold save_keys. destruct (_ <? _); auto. destruct (_ <? _); auto.
  pose proof (same_loop now now' num 82 count ck zero32 [] [] (Forall2_nil _)) as H.
  destruct (save_loop _ _ _ _ now _ _ _) as [[[c m] ks]|], (save_loop _ _ _ _ now' _ _ _) as [[[c' m'] ks']|]; auto.
Qed.

Lemma same_merge a b hk ks ks' : same_saved a b -> same_keys ks ks' ->
  same_saved (merge_saved a hk ks) (merge_saved b hk ks').
Proof.
  intros H K. unfold merge_saved. destruct K as [|x y ks ks' K1 K2]; auto.
  assert (K : same_keys (x :: ks) (y :: ks')) by now constructor.
  revert K. clear K1 K2. generalize (x :: ks) (y :: ks'). clear ks ks'. intros ks ks' K.
  assert (Q : forall ks ks', same_keys ks ks' -> forall o o', same_keys o o' ->
     same_keys (fold_left (fun m kv => mset m (fst kv) (snd kv)) ks o) (fold_left (fun m kv => mset m (fst kv) (snd kv)) ks' o')).
  { clear. induction 1 as [|[n k] [n' k'] ks ks' [A B] H IH]; intros o o' O; cbn [fold_left fst snd] in *; auto. subst.
    apply IH. now apply same_mset_keys. }
  pose proof (same_mget a b hk H) as G. destruct (mget a hk), (mget b hk); try contradiction; apply same_mset; auto.
Qed.

(** The operations of a ratchet in use, and their results. *)
Inductive op :=
| Enc (priv hn mn msg : bytes)
| Dec (order : list bytes) (now : Z) (ct : bytes).

Definition apply_op (r : ratchet) (o : op) : ratchet * outcome :=
  match o with
  | Enc priv hn mn msg => match encrypt hmac sha256 x25519 base seal r priv hn mn msg with
                          | (r', Some ct) => (r', Got ct)
                          | (r', None) => (r', Fail)
                          end
  | Dec order now ct => decrypt hmac sha256 x25519 unseal order now r ct
  end.
Fixpoint outputs (r : ratchet) (ops : list op) : list outcome :=
  match ops with [] => [] | o :: ops' => snd (apply_op r o) :: outputs (fst (apply_op r o)) ops' end.

Ltac fields := cbn [set_saved root_key send_header recv_header next_send_header next_recv_header send_chain recv_chain
        send_private recv_public send_count recv_count prev_count ratchet_flag saved my_half their_half kx_private fst snd].
Ltac sames := unfold same; fields; repeat match goal with |- _ /\ _ => split end; auto.

Lemma same_current a b now h ct : same a b ->
  same (fst (decrypt_current hmac unseal now a h ct)) (fst (decrypt_current hmac unseal now b h ct)) /\
  snd (decrypt_current hmac unseal now a h ct) = snd (decrypt_current hmac unseal now b h ct).
Proof.
  destruct a as [a1 a2 a3 a4 a5 a6 a7 a8 a9 a10 a11 a12 a13 sa a14 a15 a16].
  destruct b as [b1 b2 b3 b4 b5 b6 b7 b8 b9 b10 b11 b12 b13 sb b14 b15 b16].
  unfold same at 1. fields.
  intros (-> & -> & -> & -> & -> & -> & -> & -> & -> & -> & -> & -> & -> & S & -> & -> & ->).
  unfold decrypt_current. fields. destruct (negb _); [sames|].
  pose proof (same_save_keys now now b7 (h_num h) b11) as K.
  destruct (save_keys hmac now b7 (h_num h) b11) as [| |c mk ks]; [sames|sames|].
  destruct (unseal mk (h_nonce h) (ct_body ct)) as [msg|]; sames. apply same_merge; tauto.
Qed.

Lemma same_next a b now h ct : same a b ->
  same (fst (decrypt_next hmac sha256 x25519 unseal now a h ct)) (fst (decrypt_next hmac sha256 x25519 unseal now b h ct)) /\
  snd (decrypt_next hmac sha256 x25519 unseal now a h ct) = snd (decrypt_next hmac sha256 x25519 unseal now b h ct).
Proof.
  destruct a as [a1 a2 a3 a4 a5 a6 a7 a8 a9 a10 a11 a12 a13 sa a14 a15 a16].
  destruct b as [b1 b2 b3 b4 b5 b6 b7 b8 b9 b10 b11 b12 b13 sb b14 b15 b16].
  unfold same at 1. fields.
  intros (-> & -> & -> & -> & -> & -> & -> & -> & -> & -> & -> & -> & -> & S & -> & -> & ->).
  unfold decrypt_next. fields. destruct (negb _); [sames|]. destruct b13; [sames|].
  pose proof (same_save_keys now now b7 (h_prev h) b11) as K.
  destruct (save_keys hmac now b7 (h_prev h) b11) as [| |c mk ks]; [sames|sames|].
  destruct (x25519 b8 (h_pub h)) as [sh|]; [|sames].
  cbv zeta. set (km := sha256 _).
  pose proof (same_save_keys now now (hmac km chain_label) (h_num h) 0) as K2.
  destruct (save_keys hmac now (hmac km chain_label) (h_num h) 0) as [| |c2 mk2 ks2]; [sames|sames|].
  destruct (unseal mk2 (h_nonce h) (ct_body ct)) as [msg|]; sames.
  apply same_merge; [apply same_merge|]; tauto.
Qed.

Lemma same_set a b sa sb : same a b -> same_saved sa sb -> same (set_saved a sa) (set_saved b sb).
Proof. unfold same. fields. tauto. Qed.

Lemma same_op a b o : same a b -> same (fst (apply_op a o)) (fst (apply_op b o)) /\ snd (apply_op a o) = snd (apply_op b o).
Proof.
  intros H. destruct o as [priv hn mn msg|order now ct]; cbn [apply_op].
  - revert H. destruct a as [a1 a2 a3 a4 a5 a6 a7 a8 a9 a10 a11 a12 a13 sa a14 a15 a16].
    destruct b as [b1 b2 b3 b4 b5 b6 b7 b8 b9 b10 b11 b12 b13 sb b14 b15 b16].
    unfold same at 1. fields.
    intros (-> & -> & -> & -> & -> & -> & -> & -> & -> & -> & -> & -> & -> & S & -> & -> & ->).
    unfold encrypt. cbn [ratchet_flag]. destruct b13.
    + unfold ratchet_step. cbn [recv_public root_key].
      destruct (x25519 priv b9) as [sh|]; cbn [negb]; sames.
    + cbn [negb]. sames.
  - unfold decrypt. destruct (_ <? 104); [auto|].
    assert (S : same_saved (saved a) (saved b)) by apply H.
    pose proof (same_try order ct _ _ S) as T.
    destruct (try_saved unseal order (saved a) ct) as [[sa' m]|], (try_saved unseal order (saved b) ct) as [[sb' m']|];
      try contradiction; [|auto].
    destruct T as [T ->]. pose proof (same_set a b sa' sb' H T) as H'.
    destruct m' as [|x m]; [|auto]. cbv zeta. revert H'. generalize (set_saved a sa') (set_saved b sb'). intros a' b' H'.
    replace (recv_header a') with (recv_header b') by (symmetry; apply H').
    replace (next_recv_header a') with (next_recv_header b') by (symmetry; apply H').
    destruct (if is_zero_key (recv_header b') then None else unseal (recv_header b') (ct_nonce ct) (ct_header ct)) as [h|].
    + now apply same_current.
    + destruct (unseal (next_recv_header b') (ct_nonce ct) (ct_header ct)) as [h|]; [now apply same_next|auto].
Qed.

Lemma same_outputs ops : forall a b, same a b -> outputs a ops = outputs b ops.
Proof.
  induction ops as [|o ops IH]; intros a b H; [reflexivity|]. cbn [outputs].
  destruct (same_op a b o H) as [H1 H2]. rewrite H2. f_equal. now apply IH.
Qed.
End Behave.
