(** Lemmas about ratchets on disk. *)
From Verif Require Import Base XdrModel XdrProofs RpcModel RpcProofs RatchetModel RatchetProofs RatchetSaveProofs
  RatchetConvModel RatchetConvProofs CrashModel.
Local Open Scope N_scope.

Lemma saving_reads d full d' b : saving d full d' b ->
  mget d' ratchet_file = if b then Some full else mget d ratchet_file.
Proof.
  intros H. destruct H; auto.
  - apply mget_mset_ne. intros E. apply (f_equal (@length _)) in E. rewrite app_length in E.
    destruct digits; [congruence|]. cbn in E. lia.
  - apply mget_mset_eq.
Qed.

Section Crash.
Variable hmac : bytes -> bytes -> bytes.
Variable sha256 : bytes -> bytes.
Variable x25519 : bytes -> bytes -> option bytes.
Variable base : bytes -> bytes.
Variable seal : bytes -> bytes -> bytes -> bytes.
Variable unseal : bytes -> bytes -> bytes -> option bytes.
Hypothesis hmac_length : forall k l, length (hmac k l) = 32%nat.
Variables t0 t1 : Z.

(** A ratchet that can be saved and read again, after [n] operations. *)
Definition keys_kept (n : nat) (ks : key_map) : Prop :=
  (length ks <= 164 * n)%nat /\ NoDup (mkeys ks) /\
  Forall (fun nk => fst nk < 2 ^ 32 /\ (t0 <= sk_time (snd nk) <= t1)%Z /\ length (sk_key (snd nk)) = 32%nat) ks.
Definition saved_kept (n : nat) (sv : saved_map) : Prop :=
  (length sv <= 2 * n)%nat /\ NoDup (mkeys sv) /\ Forall (fun e => length (fst e) = 32%nat /\ keys_kept n (snd e)) sv.
Definition kept (n : nat) (r : ratchet) : Prop :=
  (length (root_key r) = 32%nat /\ length (send_header r) = 32%nat /\ length (recv_header r) = 32%nat /\
   length (next_send_header r) = 32%nat /\ length (next_recv_header r) = 32%nat /\
   length (send_chain r) = 32%nat /\ length (recv_chain r) = 32%nat /\ length (send_private r) = 32%nat /\
   length (recv_public r) = 32%nat /\
   half_ok (my_half r) /\ half_ok (their_half r) /\ half_ok (kx_private r)) /\
  send_count r < 2 ^ 32 /\ recv_count r < 2 ^ 32 /\ prev_count r < 2 ^ 32 /\ saved_kept n (saved r).

Lemma keys_kept_mono n m ks : (n <= m)%nat -> keys_kept n ks -> keys_kept m ks.
Proof. intros L (A & B & C). repeat split; auto. lia. Qed.
Lemma saved_kept_mono n m sv : (n <= m)%nat -> saved_kept n sv -> saved_kept m sv.
Proof.
  intros L (A & B & C). repeat split; auto; [lia|]. eapply Forall_impl; [|exact C]. cbn. intros e [? ?]. split; auto.
  eapply keys_kept_mono; eauto.
Qed.

Definition fresh_keys (ks : key_map) : Prop :=
  NoDup (mkeys ks) /\
  Forall (fun nk => fst nk < 2 ^ 32 /\ (t0 <= sk_time (snd nk) <= t1)%Z /\ length (sk_key (snd nk)) = 32%nat) ks.

Lemma Forall_mset {K V} `{EqB K} (P : K * V -> Prop) (m : list (K * V)) k v : Forall P m -> P (k, v) -> Forall P (mset m k v).
Proof.
  induction m as [|[k' v'] m IH]; cbn; intros F Hp; [repeat constructor; auto|].
  inversion F; subst. destruct (eqb k k'); constructor; auto.
Qed.
Lemma length_mset {K V} `{EqB K} (m : list (K * V)) k v : (length (mset m k v) <= S (length m))%nat.
Proof. induction m as [|[k' v'] m IH]; cbn; [lia|]. destruct (eqb k k'); cbn; lia. Qed.
Lemma length_mset_in {K V} `{EqB K} (m : list (K * V)) k v : mget m k <> None -> length (mset m k v) = length m.
Proof. induction m as [|[k' v'] m IH]; cbn; [congruence|]. destruct (eqb k k'); cbn; auto. Qed.
Lemma length_mdel {K V} `{EqB K} (m : list (K * V)) k : (length (mdel m k) <= length m)%nat.
Proof. unfold mdel. induction m as [|x m IH]; cbn; [lia|]. destruct (negb _); cbn; lia. Qed.
Lemma Forall_mdel' {K V} `{EqB K} (P : K * V -> Prop) (m : list (K * V)) k : Forall P m -> Forall P (mdel m k).
Proof. intros F. unfold mdel. rewrite Forall_forall in *. intros x I. apply filter_In in I as [I _]. auto. Qed.

Lemma loop_fresh now : (t0 <= now <= t1)%Z -> forall fuel n num c m ks c' m' ks', n < 2 ^ 32 ->
  length c = 32%nat -> length m = 32%nat -> fresh_keys ks ->
  save_loop hmac fuel n num now c m ks = Some (c', m', ks') ->
  length c' = 32%nat /\ length m' = 32%nat /\ fresh_keys ks' /\ (length ks' <= length ks + fuel)%nat.
Proof.
  intros T. induction fuel as [|fuel IH]; intros n num c m ks c' m' ks' Hn Hc Hm F E; cbn [save_loop] in E; [discriminate|].
  destruct (n <=? num).
  - apply IH in E; auto.
    + destruct E as (A & B & C & D). repeat split; try apply C; auto. destruct (n <? num); [|lia].
      pose proof (length_mset ks n (mkSaved (hmac c message_label) now)). lia.
    + apply N.mod_lt. discriminate.
    + destruct (n <? num); auto. destruct F as [F1 F2]. split; [now apply NoDup_mset|]. apply Forall_mset; cbn; auto.
  - injection E as <- <- <-. repeat split; try apply F; auto. lia.
Qed.

Lemma save_keys_fresh now c num count c' m' ks : (t0 <= now <= t1)%Z -> count < 2 ^ 32 -> length c = 32%nat ->
  save_keys hmac now c num count = Keys c' m' ks ->
  length c' = 32%nat /\ length m' = 32%nat /\ fresh_keys ks /\ (length ks <= 82)%nat.
Proof.
  intros T Hc Lc. unfold save_keys. destruct (num <? count); [discriminate|]. destruct (80 <? num - count); [discriminate|].
  destruct (save_loop _ _ _ _ _ _ _ _) as [[[x y] z]|] eqn:E; [|discriminate]. intros Q. injection Q as <- <- <-.
  apply loop_fresh in E; auto. split; [constructor|constructor].
Qed.

Lemma fold_kept n ks : forall old, keys_kept n old -> fresh_keys ks ->
  NoDup (mkeys (fold_left (fun m kv => mset m (fst kv) (snd kv)) ks old)) /\
  Forall (fun nk => fst nk < 2 ^ 32 /\ (t0 <= sk_time (snd nk) <= t1)%Z /\ length (sk_key (snd nk)) = 32%nat)
    (fold_left (fun m kv => mset m (fst kv) (snd kv)) ks old) /\
  (length (fold_left (fun m kv => mset m (fst kv) (snd kv)) ks old) <= length old + length ks)%nat.
Proof.
  intros old (A & B & C) [_ F]. clear A. revert old B C. induction F as [|[x y] ks Hx F IH]; intros old B C; cbn [fold_left fst snd].
  - repeat split; auto. lia.
  - destruct (IH (mset old x y)) as (I1 & I2 & I3); [now apply NoDup_mset|apply Forall_mset; auto|].
    repeat split; auto. pose proof (length_mset old x y). cbn [length]. lia.
Qed.

Lemma mget_Forall {K V} `{EqB K} (P : K * V -> Prop) (m : list (K * V)) k v : Forall P m -> mget m k = Some v -> P (k, v).
Proof.
  intros F E. apply mget_In in E. rewrite Forall_forall in F. auto.
Qed.

(** [half]: how far a chain of two merges has got. *)
Definition half_kept (n : nat) (extra : nat) (sv : saved_map) : Prop :=
  (length sv <= 2 * n + extra)%nat /\ NoDup (mkeys sv) /\
  Forall (fun e => length (fst e) = 32%nat /\ (length (snd e) <= 164 * n + 82 * extra)%nat /\ fresh_keys (snd e)) sv.

Lemma merge_kept n x sv hk ks : half_kept n x sv -> length hk = 32%nat -> fresh_keys ks -> (length ks <= 82)%nat ->
  half_kept n (S x) (merge_saved sv hk ks).
Proof.
  intros (A & B & C) L F Lk. assert (W : half_kept n (S x) sv).
  { repeat split; auto; [lia|]. eapply Forall_impl; [|exact C]. cbn. intros e (? & ? & ?). repeat split; try apply H1; auto. lia. }
  unfold merge_saved. destruct ks as [|k0 ks0] eqn:Ek; auto. rewrite <- Ek in *. clear k0 ks0 Ek.
  destruct (mget sv hk) as [old|] eqn:G.
  - pose proof (mget_Forall _ _ _ _ C G) as (G1 & G2 & G3). cbn [fst snd] in *.
    destruct (fold_kept (S (n + x)) ks old) as (F1 & F2 & F3); auto; [repeat split; try apply G3; lia|].
    destruct W as (W1 & W2 & W3). repeat split; [rewrite length_mset_in by congruence; lia|now apply NoDup_mset|].
    apply Forall_mset; auto. cbn. repeat split; auto. lia.
  - destruct W as (W1 & W2 & W3). repeat split; [pose proof (length_mset sv hk ks); lia|now apply NoDup_mset|].
    apply Forall_mset; auto. cbn. repeat split; try apply F; auto. lia.
Qed.

Lemma half_of_kept n sv : saved_kept n sv -> half_kept n 0 sv.
Proof.
  intros (A & B & C). repeat split; auto; [lia|]. eapply Forall_impl; [|exact C]. cbn. intros e (? & ? & ? & ?). repeat split; auto. lia.
Qed.
Lemma kept_of_half n x sv : (x <= 2)%nat -> half_kept n x sv -> saved_kept (S n) sv.
Proof.
  intros L (A & B & C). repeat split; auto; [lia|]. eapply Forall_impl; [|exact C]. cbn. intros e (? & ? & ? & ?). repeat split; auto. lia.
Qed.

Lemma try_kept n ct order : forall sv sv' m, saved_kept n sv -> try_saved unseal order sv ct = Some (sv', m) -> saved_kept n sv'.
Proof.
  induction order as [|hk rest IH]; intros sv sv' m K E; cbn [try_saved] in E; [injection E as <- _; auto|].
  destruct (mget sv hk) as [keys|] eqn:G; [|eauto]. destruct (unseal hk _ _) as [h|]; [|eauto].
  destruct (negb _); [eauto|]. destruct (mget keys (h_num h)) as [k|] eqn:G2; [|injection E as <- _; auto].
  destruct (unseal (sk_key k) _ _) as [msg|]; [|discriminate].
  destruct K as (A & B & C). pose proof (mget_Forall _ _ _ _ C G) as (L & K1 & K2 & K3). cbn [fst snd] in *.
  assert (KD : keys_kept n (mdel keys (h_num h))).
  { repeat split; [pose proof (length_mdel keys (h_num h)); lia|now apply NoDup_mdel|now apply Forall_mdel']. }
  injection E as <- _. destruct (mdel keys (h_num h)) eqn:Em.
  - repeat split; [pose proof (length_mdel sv hk); lia|now apply NoDup_mdel|now apply Forall_mdel'].
  - repeat split; [rewrite length_mset_in by congruence; lia|now apply NoDup_mset|]. apply Forall_mset; auto.
Qed.

Lemma h_pub_length h : length h = 64%nat -> length (h_pub h) = 32%nat.
Proof. intros L. unfold h_pub. rewrite firstn_length, skipn_length, L. reflexivity. Qed.

Notation apply_op := (apply_op hmac sha256 x25519 base seal unseal).

Definition op_ok (o : op) : Prop :=
  match o with Enc priv _ _ _ => length priv = 32%nat | Dec _ now _ => (t0 <= now <= t1)%Z end.

Lemma mod32 x : x mod 2 ^ 32 < 2 ^ 32.
Proof. apply N.mod_lt. discriminate. Qed.

Lemma kept_op n r o : kept n r -> op_ok o -> kept (S n) (fst (apply_op r o)).
Proof.
  intros ((K1 & K2 & K3 & K4 & K5 & K6 & K7 & K8 & K9 & K10 & K11 & K12) & C1 & C2 & C3 & S) O.
  assert (S' : saved_kept (Datatypes.S n) (saved r)) by (eapply saved_kept_mono; [|eauto]; lia).
  destruct o as [priv hn mn msg|order now ct]; cbn [RatchetSaveProofs.apply_op].
  - unfold encrypt, ratchet_step. destruct (ratchet_flag r); [destruct (x25519 priv (recv_public r))|]; cbn [negb fst];
      unfold kept; cbn [root_key send_header recv_header next_send_header next_recv_header send_chain recv_chain
        send_private recv_public send_count recv_count prev_count ratchet_flag saved my_half their_half kx_private];
      rewrite ?hmac_length; repeat split; auto; try apply mod32; try apply S'.
  - cbn in O. unfold decrypt. destruct (_ <? 104); [repeat split; auto; apply S'|].
    destruct (try_saved unseal order (saved r) ct) as [[sv m]|] eqn:E; [|repeat split; auto; apply S'].
    pose proof (try_kept _ _ _ _ _ _ S E) as T. assert (T' : saved_kept (Datatypes.S n) sv) by (eapply saved_kept_mono; [|eauto]; lia).
    destruct m as [|b m]; [|cbn; repeat split; auto; apply T']. cbv zeta.
    set (r1 := set_saved r sv). assert (Base : kept (Datatypes.S n) r1) by (unfold r1; cbn; repeat split; auto; apply T').
    assert (F1 : recv_header r1 = recv_header r) by reflexivity.
    destruct (if is_zero_key (recv_header r1) then None else unseal (recv_header r1) (ct_nonce ct) (ct_header ct)) as [h|].
    + unfold decrypt_current. destruct (negb _); auto.
      destruct (save_keys hmac now (recv_chain r1) (h_num h) (recv_count r1)) as [| |c mk ks] eqn:Q; auto.
      apply save_keys_fresh in Q as (Q1 & Q2 & Q3 & Q4); auto.
      destruct (unseal mk (h_nonce h) (ct_body ct)); auto. unfold kept. cbn.
      repeat split; auto; try apply mod32;
        apply (kept_of_half n 1); try lia; apply merge_kept; auto; apply half_of_kept; auto.
    + destruct (unseal (next_recv_header r1) (ct_nonce ct) (ct_header ct)) as [h|]; auto.
      unfold decrypt_next. destruct (negb (N.of_nat (length h) =? 64)) eqn:Lh; auto.
      apply negb_false_iff, N.eqb_eq in Lh. assert (Lh' : length h = 64%nat) by lia.
      destruct (ratchet_flag r1); auto.
      destruct (save_keys hmac now (recv_chain r1) (h_prev h) (recv_count r1)) as [| |c0 mk0 ks0] eqn:Q0; auto.
      apply save_keys_fresh in Q0 as (_ & _ & P3 & P4); auto.
      destruct (x25519 (send_private r1) (h_pub h)) as [shared|]; auto.
      destruct (save_keys hmac now _ (h_num h) 0) as [| |c mk ks] eqn:Q; auto.
      apply save_keys_fresh in Q as (Q1 & Q2 & Q3 & Q4); auto; [|reflexivity].
      destruct (unseal mk (h_nonce h) (ct_body ct)); auto. unfold kept. cbn. rewrite ?hmac_length.
      repeat split; auto; try apply mod32; try (now apply h_pub_length);
        apply (kept_of_half n 2); try lia; apply merge_kept; auto; apply merge_kept; auto; apply half_of_kept; auto.
Qed.

(** ** What is read back *)

Hypothesis t0_low : (0 <= t0)%Z.
Hypothesis t0_second : (t0 mod 1000000000 = 0)%Z.
Hypothesis t1_high : (t1 <= t0 + lifetime)%Z.
Hypothesis t1_low : (t1 < 2 ^ 63)%Z.

Definition few (n : nat) : Prop := N.of_nat n < 2 ^ 20.

Lemma filter_length_le {A} (f : A -> bool) l : (length (filter f l) <= length l)%nat.
Proof. induction l as [|x l IH]; cbn; [lia|]. destruct (f x); cbn; lia. Qed.
Lemma str32 k : length k = 32%nat -> str_ok 0 k.
Proof. unfold str_ok. intros ->. split; [vm_compute; discriminate|auto]. Qed.
Lemma str_half h : half_ok h -> str_ok 0 (dup32 h).
Proof. destruct h; cbn; [apply str32|]. intros _. split; [vm_compute; discriminate|auto]. Qed.

Lemma not_expired now k : (t0 <= now <= t1)%Z -> (t0 <= sk_time k <= t1)%Z -> expired now lifetime k = false.
Proof. intros A B. unfold expired. apply Z.ltb_ge. lia. Qed.

Lemma kept_marshal n now r : few n -> kept n r -> RatchetState_ok 0 (marshal now lifetime r).
Proof.
  unfold few. intros Fn ((K1 & K2 & K3 & K4 & K5 & K6 & K7 & K8 & K9 & K10 & K11 & K12) & C1 & C2 & C3 & S1 & S2 & S3).
  unfold RatchetState_ok, marshal. cbn [RatchetState_RootKey RatchetState_SendHeaderKey RatchetState_RecvHeaderKey
    RatchetState_NextSendHeaderKey RatchetState_NextRecvHeaderKey RatchetState_SendChainKey RatchetState_RecvChainKey
    RatchetState_SendRatchetPrivate RatchetState_RecvRatchetPublic RatchetState_SendCount RatchetState_RecvCount
    RatchetState_PrevSendCount RatchetState_Ratchet RatchetState_Private RatchetState_MyHalf RatchetState_TheirHalf
    RatchetState_SavedKeys].
  repeat (split; [first [now apply str32|now apply str_half|assumption]|]).
  assert (M : max_int32 = 2147483647) by reflexivity. change (2 ^ 20) with 1048576 in Fn.
  split; [rewrite map_length, M; lia|]. split; [auto|].
  rewrite Forall_map. eapply Forall_impl; [|exact S3]. intros [hk keys] (A & B & C & D). cbn [fst snd] in *.
  split; [now apply str32|]. cbn [SavedKeys_MessageKeys]. split; [|split; [auto|]].
  - rewrite map_length, M. pose proof (filter_length_le (fun nk : N * saved_key => negb (lifetime <? now - sk_time (snd nk))%Z) keys). lia.
  - rewrite Forall_map. apply Forall_forall. intros x I. apply filter_In in I as [I _]. rewrite Forall_forall in D.
    destruct (D _ I) as (D1 & D2 & D3). split; [exact D1|]. split; [now apply str32|].
    cbn [SavedMessageKey_CreationTime]. unfold i64_ok, unix.
    assert (0 <= sk_time (snd x) / 1000000000)%Z by (apply Z.div_pos; lia).
    assert (sk_time (snd x) / 1000000000 <= sk_time (snd x))%Z by (apply Z.div_le_upper_bound; lia). lia.
Qed.

Lemma kept_ratchet_ok n r : kept n r -> ratchet_ok r.
Proof.
  intros (A & C1 & C2 & C3 & S1 & S2 & S3). unfold ratchet_ok.
  repeat (split; [apply A|]). split; auto. eapply Forall_impl; [|exact S3]. intros e (B1 & B2 & B3 & B4). repeat split; auto.
  eapply Forall_impl; [|exact B4]. cbn. tauto.
Qed.

Lemma purge_nothing n now r : (t0 <= now <= t1)%Z -> kept n r -> purge now lifetime r = r.
Proof.
  intros T (A & C1 & C2 & C3 & S1 & S2 & S3). unfold purge.
  replace (map _ (saved r)) with (saved r); [apply set_saved_id|]. clear S1 S2.
  induction S3 as [|[hk keys] sv (_ & _ & _ & X) S IH]; [reflexivity|]. cbn [map fst snd] in *. f_equal; auto. f_equal. clear - X T t1_high.
  induction X as [|x keys (X1 & X2 & X3) X IH]; [reflexivity|]. cbn [filter]. rewrite not_expired by auto. cbn. now f_equal.
Qed.

Lemma load_image n p d now r : few n -> kept n r -> (t0 <= now <= t1)%Z -> mget d ratchet_file = Some (image now r) ->
  exists r', load p d = Some r' /\ same r' r /\ kept n r'.
Proof.
  intros Fn K T G. destruct (restore (new_ratchet p) now lifetime r) as (r' & E & S & SV).
  { eapply kept_ratchet_ok; eauto. } { reflexivity. } { discriminate. }
  exists r'. unfold load, image in *. rewrite G.
  pose proof (proj1 good_RatchetState 0 (marshal now lifetime r) [] (kept_marshal _ _ _ Fn K)) as R.
  rewrite app_nil_r in R. rewrite R, E. rewrite (purge_nothing n) in S by auto. split; auto. split; auto.
  destruct K as ((K1 & K2 & K3 & K4 & K5 & K6 & K7 & K8 & K9 & K10 & K11 & K12) & C1 & C2 & C3 & S1 & S2 & S3).
  destruct S as (A1 & A2 & A3 & A4 & A5 & A6 & A7 & A8 & A9 & A10 & A11 & A12 & A13 & _ & A14 & A15 & A16).
  unfold kept. rewrite A1, A2, A3, A4, A5, A6, A7, A8, A9, A10, A11, A12, A14, A15, A16.
  repeat (split; [first [assumption|tauto]|]). rewrite SV.
  split; [rewrite map_length; lia|]. split; [unfold mkeys; rewrite map_map; exact S2|].
  rewrite Forall_map. eapply Forall_impl; [|exact S3]. intros [hk keys] (B1 & B2 & B3 & B4). cbn [fst snd] in *. split; auto.
  split; [|split].
  - rewrite map_length. pose proof (filter_length_le (fun nk : N * saved_key => negb (expired now lifetime (snd nk))) keys). lia.
  - unfold mkeys. rewrite map_map. cbn [fst]. now apply NoDup_map_filter.
  - rewrite Forall_map. apply Forall_forall. intros x I. apply filter_In in I as [I _]. rewrite Forall_forall in B4.
    destruct (B4 _ I) as (D1 & D2 & D3). cbn [fst snd sk_time sk_key]. repeat split; auto; unfold unix.
    + pose proof (Z.div_mod t0 1000000000). assert (t0 / 1000000000 <= sk_time (snd x) / 1000000000)%Z by (apply Z.div_le_mono; lia). lia.
    + pose proof (Z.mul_div_le (sk_time (snd x)) 1000000000). lia.
Qed.


(** ** The two parties *)
Variable xs : nat -> bytes.
Variables a b : ratchet.
Hypothesis xs_length : forall e, length (xs e) = 32%nat.
Hypothesis a_kept : kept 0 a.
Hypothesis b_kept : kept 0 b.
Notation reach := (reach hmac sha256 x25519 base seal unseal xs a b t0 t1).
Notation memory := (memory hmac sha256 x25519 base seal unseal xs a b).

Definition on_disk (n : nat) (r : ratchet) (d : dir) : Prop :=
  exists m r1 now, mget d ratchet_file = Some (image now r1) /\ same r1 r /\ kept m r1 /\ (m <= n)%nat /\ (t0 <= now <= t1)%Z.

Lemma same_refl r : same r r.
Proof.
  assert (K : forall k, same_keys k k) by (intros k; induction k; constructor; auto).
  unfold same. repeat split. unfold same_saved. induction (saved r); constructor; auto.
Qed.
Lemma same_sym r s : same r s -> same s r.
Proof.
  assert (K : forall k l, same_keys k l -> same_keys l k) by (intros k l; induction 1 as [|? ? ? ? [? ?]]; constructor; auto).
  intros (A1 & A2 & A3 & A4 & A5 & A6 & A7 & A8 & A9 & A10 & A11 & A12 & A13 & S & A14 & A15 & A16).
  unfold same. repeat split; auto. unfold same_saved in *. induction S as [|? ? ? ? [? ?]]; constructor; auto.
Qed.
Lemma same_trans r s t : same r s -> same s t -> same r t.
Proof.
  assert (K : forall k l m, same_keys k l -> same_keys l m -> same_keys k m).
  { intros k l m A. revert m. induction A as [|? ? ? ? [? ?]]; intros m B; inversion B as [|? ? ? ? [? ?]]; subst; constructor; auto.
    - split; etransitivity; eassumption.
    - now apply IHA. }
  intros (A1 & A2 & A3 & A4 & A5 & A6 & A7 & A8 & A9 & A10 & A11 & A12 & A13 & S & A14 & A15 & A16).
  intros (B1 & B2 & B3 & B4 & B5 & B6 & B7 & B8 & B9 & B10 & B11 & B12 & B13 & T & B14 & B15 & B16).
  unfold same. repeat (split; [etransitivity; eassumption|]). split; [|repeat split; etransitivity; eassumption].
  unfold same_saved in *. revert T. generalize (saved t). induction S as [|? ? ? ? [? ?]]; intros m B; inversion B as [|? ? ? ? [? ?]]; subst; constructor; auto.
  split; [etransitivity; eassumption|eapply K; eassumption].
Qed.
Lemma same_saved_keys x y : same_saved x y -> mkeys x = mkeys y.
Proof. induction 1 as [|? ? ? ? [E _] S IH]; [reflexivity|]. unfold mkeys in *. cbn [map]. now rewrite E, IH. Qed.

Lemma memory_snoc done ev : memory (done ++ [ev]) = fst (step hmac sha256 x25519 base seal unseal xs (memory done) ev).
Proof. unfold CrashModel.memory. now rewrite run_app, run_one. Qed.

Lemma set_apply {A} (f : bool -> A) who v w : set f who v w = if Bool.eqb w who then v else f w.
Proof. reflexivity. Qed.

Lemma on_disk_same n r d d' : mget d' ratchet_file = mget d ratchet_file -> on_disk n r d -> on_disk n r d'.
Proof. intros E (m & r1 & now & G & X). exists m, r1, now. now rewrite E. Qed.
Lemma on_disk_mono n n' r d : (n <= n')%nat -> on_disk n r d -> on_disk n' r d.
Proof. intros L (m & r1 & now & G & A & B & C & D). exists m, r1, now. split; [exact G|]. split; [exact A|]. split; [exact B|]. split; [lia|exact D]. Qed.

Lemma on_disk_load n r d p : few n -> on_disk n r d -> exists r2, load p d = Some r2 /\ same r2 r /\ kept n r2.
Proof.
  intros F (m & r1 & now & G & A & B & C & D).
  destruct (load_image n p d now r1) as (r2 & E1 & E2 & E3); auto.
  - destruct B as (K & C1 & C2 & C3 & S). repeat split; try tauto; apply (saved_kept_mono m n); auto.
  - exists r2. split; auto. split; auto. eapply same_trans; eauto.
Qed.

Lemma reach_disk done D : reach done D -> few (length done) -> forall who, on_disk (length done) (w_r (memory done) who) (D who).
Proof.
  induction 1 as [D now T G|done D who priv hn mn msg now d' wire ond R IH T X Y|done D who order ct now d' m ond R IH T X]; intros F who'.
  - exists 0%nat, (if who' then a else b), now. rewrite G. split; [auto|]. split; [destruct who'; apply same_refl|]. split; [destruct who'; auto|]. split; auto.
  - destruct X as [|p r r' ct d' bb L E S].
    + unfold set. destruct (Bool.eqb_spec who' who); subst; auto.
    + destruct Y as [-> ->]. rewrite app_length in *. cbn [length] in *. unfold few in F.
      assert (F' : few (length done)) by (unfold few; lia). specialize (IH F').
      rewrite memory_snoc. cbn [step]. destruct (on_disk_load _ _ _ p F' (IH who)) as (r2 & L2 & S2 & K2).
      rewrite L in L2. injection L2 as <-.
      set (w := memory done) in *.
      destruct (same_op hmac sha256 x25519 base seal unseal _ _ (Enc (xs (fst (fst (snd (ideal_send (w_i w who)))))) hn mn msg) S2) as [Q1 Q2].
      cbn [RatchetSaveProofs.apply_op] in Q1, Q2. rewrite E in Q1, Q2. destruct (ideal_send (w_i w who)) as [i' l]. cbn [fst snd] in *.
      destruct (encrypt hmac sha256 x25519 base seal (w_r w who) _ hn mn msg) as [r3 [ct3|]]; [|discriminate Q2].
      cbn [fst snd] in *. cbn [w_r]. unfold set. destruct (Bool.eqb_spec who' who); [|eapply on_disk_mono; [|apply IH]; lia].
      subst who'. exists (Datatypes.S (length done)), r', now. rewrite (saving_reads _ _ _ _ S). split; [auto|]. split; [exact Q1|]. split; [|split; [lia|exact T]].
      assert (P := kept_op _ r (Enc (xs (fst (fst l))) hn mn msg) K2 (xs_length _)). cbn [RatchetSaveProofs.apply_op] in P.
      rewrite E in P. exact P.
  - destruct ond.
    + assert (exists p r r' m', load p (D who) = Some r /\
        decrypt hmac sha256 x25519 unseal (order (mkeys (saved r))) now r ct = (r', Got m') /\ saving (D who) (image now r') d' true) as
        (p & r & r' & m' & L & E & S) by (inversion X; subst; eauto 10).
      rewrite app_length in *. cbn [length] in *. unfold few in F.
      assert (F' : few (length done)) by (unfold few; lia). specialize (IH F').
      rewrite memory_snoc. cbn [step]. destruct (on_disk_load _ _ _ p F' (IH who)) as (r2 & L2 & S2 & K2).
      rewrite L in L2. injection L2 as <-.
      set (w := memory done) in *.
      assert (KE : mkeys (saved r) = mkeys (saved (w_r w who))) by (apply same_saved_keys; unfold same in S2; tauto).
      destruct (same_op hmac sha256 x25519 base seal unseal _ _ (Dec (order (mkeys (saved r))) now ct) S2) as [Q1 Q2].
      cbn [RatchetSaveProofs.apply_op] in Q1, Q2. rewrite E in Q1, Q2. rewrite KE in Q1, Q2. cbn [fst snd] in Q1, Q2.
      destruct (decrypt hmac sha256 x25519 unseal (order (mkeys (saved (w_r w who)))) now (w_r w who) ct) as [r3 o3].
      cbn [fst snd] in *. destruct (match find_sent _ _ _ with None => _ | Some _ => _ end) as [i' id].
      cbn [fst w_r]. unfold set. destruct (Bool.eqb_spec who' who); [|eapply on_disk_mono; [|apply IH]; lia].
      subst who'. exists (Datatypes.S (length done)), r', now. rewrite (saving_reads _ _ _ _ S). split; [auto|]. split; [exact Q1|]. split; [|split; [lia|exact T]].
      assert (P := kept_op _ r (Dec (order (mkeys (saved r))) now ct) K2 T). cbn [RatchetSaveProofs.apply_op] in P.
      rewrite E in P. exact P.
    + specialize (IH F). unfold set. destruct (Bool.eqb_spec who' who); auto. subst who'.
      eapply on_disk_same; [|apply IH]. inversion X; subst; auto. match goal with H : saving _ _ _ _ |- _ => apply saving_reads in H; exact H end.
Qed.
End Crash.
