(** Proofs about single operations of the ratchet. *)
From Verif Require Import Base XdrModel XdrProofs RpcModel BlobModel SessionProofs RatchetModel.
Local Open Scope N_scope.

(** * Specification *)

Section Chain.
Variable hmac : bytes -> bytes -> bytes.

(** The chain key after [i] messages, and the key of message [i]. *)
Fixpoint chain_at (ck : bytes) (i : nat) : bytes :=
  match i with O => ck | S i' => hmac (chain_at ck i') step_label end.
Definition mkey_at (ck : bytes) (i : nat) : bytes := hmac (chain_at ck i) message_label.

(** The keys stored when a chain at message [count] jumps to message [num]. *)
Definition skipped (now : Z) (ck : bytes) (count num : N) : key_map :=
  map (fun j => (count + N.of_nat j, mkSaved (mkey_at ck j) now)) (seq 0 (N.to_nat (num - count))).

Lemma chain_at_S ck i : chain_at (hmac ck step_label) i = chain_at ck (S i).
Proof. induction i as [|i IH]; [reflexivity|]. cbn [chain_at] in *. now rewrite IH. Qed.

Lemma chain_at_add ck i j : chain_at (chain_at ck i) j = chain_at ck (i + j).
Proof.
  induction j as [|j IH]; [now rewrite Nat.add_0_r|].
  rewrite Nat.add_succ_r. cbn [chain_at]. now rewrite IH.
Qed.

Lemma mset_fresh {K V} `{EqB K} (m : list (K * V)) k v : ~ In k (mkeys m) -> mset m k v = m ++ [(k, v)].
Proof.
  induction m as [|[k' v'] m IH]; intros Hn; [reflexivity|].
  cbn [mset mkeys map fst In app] in *. destruct (eqb_spec k k') as [->|Hne].
  - exfalso. tauto.
  - rewrite IH; auto.
Qed.

Lemma save_loop_spec now num : forall d fuel n ck mk keys,
  n + N.of_nat d = num -> num < 2 ^ 32 - 1 -> (d + 2 <= fuel)%nat ->
  Forall (fun k => k < n) (mkeys keys) ->
  save_loop hmac fuel n num now ck mk keys =
  Some (chain_at ck (S d), mkey_at ck d, keys ++ skipped now ck n num).
Proof.
  induction d as [|d IH]; intros fuel n ck mk keys Hn Hnum Hf Hk.
  - destruct fuel as [|[|fuel]]; [lia|lia|]. cbn [save_loop].
    assert (n = num) by lia. subst n.
    rewrite N.leb_refl, N.ltb_irrefl, N.mod_small by lia.
    destruct (N.leb_spec (num + 1) num); [lia|].
    unfold skipped. rewrite N.sub_diag. cbn [N.to_nat seq map]. now rewrite app_nil_r.
  - destruct fuel as [|fuel]; [lia|]. cbn [save_loop].
    destruct (N.leb_spec n num); [|lia]. destruct (N.ltb_spec n num); [|lia].
    rewrite N.mod_small by lia.
    rewrite (IH fuel (n + 1)); try lia.
    + f_equal. rewrite chain_at_S. f_equal; [f_equal|].
      * unfold mkey_at. now rewrite chain_at_S.
      * rewrite mset_fresh.
        2:{ intros Hi. rewrite Forall_forall in Hk. apply Hk in Hi. lia. }
        rewrite <- app_assoc. f_equal. unfold skipped.
        replace (N.to_nat (num - n)) with (S (N.to_nat (num - (n + 1)))) by lia.
        cbn [seq map app]. f_equal.
        -- unfold mkey_at. cbn [chain_at]. f_equal. lia.
        -- rewrite <- seq_shift, map_map. apply map_ext. intros j.
           unfold mkey_at. rewrite chain_at_S. f_equal. lia.
    + rewrite mset_fresh.
      2:{ intros Hi. rewrite Forall_forall in Hk. apply Hk in Hi. lia. }
      unfold mkeys. rewrite map_app. apply Forall_app. split.
      * eapply Forall_impl; [|exact Hk]. intros. simpl in *. lia.
      * repeat constructor. simpl. lia.
Qed.

Lemma save_keys_ok now ck num count : count <= num -> num - count <= 80 -> num < 2 ^ 32 - 1 ->
  save_keys hmac now ck num count =
  Keys (chain_at ck (S (N.to_nat (num - count)))) (mkey_at ck (N.to_nat (num - count))) (skipped now ck count num).
Proof.
  intros H1 H2 H3. unfold save_keys. destruct (N.ltb_spec num count); [lia|].
  destruct (N.ltb_spec 80 (num - count)); [lia|].
  rewrite (save_loop_spec now num (N.to_nat (num - count))) by (try lia; constructor). reflexivity.
Qed.

Lemma save_keys_past now ck num count : num < count -> save_keys hmac now ck num count = Refused.
Proof. intros H. unfold save_keys. destruct (N.ltb_spec num count); [auto|lia]. Qed.

Lemma save_keys_far now ck num count : count + 80 < num -> save_keys hmac now ck num count = Refused.
Proof.
  intros H. unfold save_keys. destruct (N.ltb_spec num count); [auto|].
  destruct (N.ltb_spec 80 (num - count)); [auto|lia].
Qed.

(** At the last message number the loop never ends. *)
Lemma save_loop_forever now : forall fuel n ck mk keys, n < 2 ^ 32 ->
  save_loop hmac fuel n (2 ^ 32 - 1) now ck mk keys = None.
Proof.
  induction fuel as [|fuel IH]; intros n ck mk keys Hn; [reflexivity|].
  cbn [save_loop]. destruct (N.leb_spec n (2 ^ 32 - 1)); [|lia].
  apply IH. apply N.mod_lt. discriminate.
Qed.

Lemma save_loop_length now : forall fuel n num ck mk keys c m ks,
  save_loop hmac fuel n num now ck mk keys = Some (c, m, ks) ->
  (length ks <= length keys + fuel)%nat.
Proof.
  induction fuel as [|fuel IH]; intros n num ck mk keys c m ks H; cbn [save_loop] in H; [discriminate|].
  destruct (n <=? num).
  - apply IH in H. destruct (n <? num); [|lia].
    assert (length (mset keys n (mkSaved (hmac ck message_label) now)) <= S (length keys))%nat.
    { clear. induction keys as [|[k v] ks IH]; simpl; [lia|]. destruct (eqb n k); simpl; lia. }
    lia.
  - injection H as <- <- <-. lia.
Qed.

(** At most 80 keys are saved. *)
Lemma save_keys_bound now ck num count c m ks : num < 2 ^ 32 -> save_keys hmac now ck num count = Keys c m ks ->
  (length ks <= 80)%nat.
Proof.
  intros Hn. destruct (N.ltb_spec num count) as [H|H]; [now rewrite save_keys_past|].
  destruct (N.ltb_spec (count + 80) num) as [H'|H']; [now rewrite save_keys_far|].
  destruct (N.eq_dec num (2 ^ 32 - 1)) as [->|Hne].
  - unfold save_keys. rewrite save_loop_forever by lia.
    destruct (_ <? _); [discriminate|]. destruct (_ <? _); discriminate.
  - rewrite save_keys_ok by lia. intros E. injection E as <- <- <-.
    unfold skipped. rewrite map_length, seq_length. lia.
Qed.

Lemma mget_skipped now ck count num n : mget (skipped now ck count num) n =
  if (count <=? n) && (n <? num) then Some (mkSaved (mkey_at ck (N.to_nat (n - count))) now) else None.
Proof.
  unfold skipped.
  assert (H : forall len s, mget (map (fun j => (count + N.of_nat j, mkSaved (mkey_at ck j) now)) (seq s len)) n =
            if (count + N.of_nat s <=? n) && (n <? count + N.of_nat s + N.of_nat len)
            then Some (mkSaved (mkey_at ck (N.to_nat (n - count))) now) else None).
  { induction len as [|len IH]; intros s; cbn [seq map mget].
    - destruct (N.leb_spec (count + N.of_nat s) n), (N.ltb_spec n (count + N.of_nat s + N.of_nat 0)); auto; lia.
    - rewrite IH. destruct (eqb_spec n (count + N.of_nat s)) as [->|Hne].
      + rewrite N.leb_refl. destruct (N.ltb_spec (count + N.of_nat s) (count + N.of_nat s + N.of_nat (S len))); [|lia].
        cbn [andb]. do 3 f_equal. lia.
      + destruct (N.leb_spec (count + N.of_nat (S s)) n), (N.ltb_spec n (count + N.of_nat (S s) + N.of_nat len)),
          (N.leb_spec (count + N.of_nat s) n), (N.ltb_spec n (count + N.of_nat s + N.of_nat (S len))); auto; lia. }
  rewrite H. change (N.of_nat 0) with 0. rewrite N.add_0_r, N2Nat.id.
  destruct (N.leb_spec count n), (N.ltb_spec n (count + (num - count))), (N.ltb_spec n num); auto; lia.
Qed.

Lemma skipped_nil now ck count num : skipped now ck count num = [] <-> num <= count.
Proof.
  unfold skipped. split; intros H.
  - apply (f_equal (@length _)) in H. rewrite map_length, seq_length in H. simpl in H. lia.
  - now replace (N.to_nat (num - count)) with O by lia.
Qed.
End Chain.

Lemma firstn_app_len {A} n (x y : list A) : length x = n -> firstn n (x ++ y) = x.
Proof. intros <-. apply firstn_app_exact. Qed.
Lemma skipn_app_len {A} n (x y : list A) : length x = n -> skipn n (x ++ y) = y.
Proof. intros <-. apply skipn_app_exact. Qed.

(** * Looking up saved keys *)

Definition lookup (sv : saved_map) (hk : bytes) (n : N) : option saved_key :=
  match mget sv hk with Some m => mget m n | None => None end.

Lemma mget_fold_mset (keys : key_map) : NoDup (mkeys keys) -> forall (old : key_map) n,
  mget (fold_left (fun m kv => mset m (fst kv) (snd kv)) keys old) n =
  match mget keys n with Some v => Some v | None => mget old n end.
Proof.
  induction keys as [|[k v] keys IH]; intros Hd old n; [reflexivity|].
  inversion Hd as [|? ? Hk Hd']; subst. cbn [fold_left fst snd mget].
  rewrite IH by auto. destruct (eqb_spec n k) as [->|Hne].
  - destruct (mget keys k) as [v'|] eqn:E.
    + apply mget_Some_keys in E. contradiction.
    + apply mget_mset_eq.
  - destruct (mget keys n); auto. now apply mget_mset_ne.
Qed.

Lemma NoDup_skipped hmac now ck count num : NoDup (mkeys (skipped hmac now ck count num)).
Proof.
  unfold skipped, mkeys. rewrite map_map. cbn [fst].
  generalize (N.to_nat (num - count)). intros len. generalize 0%nat. induction len as [|len IH]; intros s; cbn [seq map].
  - constructor.
  - constructor; auto. rewrite in_map_iff. intros (x & E & Hi). apply in_seq in Hi. lia.
Qed.

Lemma lookup_merge sv hk keys hk' n : NoDup (mkeys keys) ->
  lookup (merge_saved sv hk keys) hk' n =
  if eqb hk' hk then match mget keys n with Some v => Some v | None => lookup sv hk n end
  else lookup sv hk' n.
Proof.
  intros Hd. unfold merge_saved, lookup. destruct keys as [|kv keys].
  - destruct (eqb_spec hk' hk) as [->|]; reflexivity.
  - destruct (mget sv hk) as [old|] eqn:E; rewrite mget_mset; destruct (eqb_spec hk' hk) as [->|Hne]; auto.
    + now rewrite mget_fold_mset.
    + now destruct (mget (kv :: keys) n).
Qed.

Lemma mkeys_merge sv hk keys k : In k (mkeys (merge_saved sv hk keys)) -> In k (mkeys sv) \/ (k = hk /\ keys <> []).
Proof.
  unfold merge_saved. destruct keys as [|kv keys]; [tauto|].
  assert (Hne : kv :: keys <> []) by discriminate. revert Hne. generalize (kv :: keys). intros ks Hne H.
  assert (Hs : forall v, In k (mkeys (mset sv hk v)) -> In k (mkeys sv) \/ k = hk).
  { intros v. clear. induction sv as [|[k' v'] sv IH]; cbn [mset mkeys map fst In].
    - intuition.
    - destruct (eqb_spec hk k') as [->|]; cbn [map fst In]; [tauto|]. intros [->|Hi]; [tauto|].
      apply IH in Hi. tauto. }
  destruct (mget sv hk); apply Hs in H; tauto.
Qed.

(** * Headers *)

Lemma get_put_le32 n : n < 2 ^ 32 -> get_le32 (put_le32 n) = n.
Proof.
  intros H. unfold get_le32, put_le32. cbn [nth].
  pose proof (N.div_mod' n 256). pose proof (N.div_mod' (n / 256) 256). pose proof (N.div_mod' (n / 65536) 256).
  replace (n / 65536) with (n / 256 / 256) in * by (rewrite N.div_div by lia; reflexivity).
  replace (n / 16777216) with (n / 256 / 256 / 256) by (rewrite !N.div_div by lia; reflexivity).
  assert (n / 256 / 256 / 256 < 256).
  { rewrite !N.div_div by lia. apply N.div_lt_upper_bound; lia. }
  rewrite (N.mod_small (n / 256 / 256 / 256)) by auto. lia.
Qed.

Lemma get_le32_lt b : Forall is_byte b -> length b = 4%nat -> get_le32 b < 2 ^ 32.
Proof.
  intros H L. destruct b as [|b0 [|b1 [|b2 [|b3 [|]]]]]; simpl in L; try lia.
  repeat match goal with H : Forall _ (_ :: _) |- _ => inversion H; clear H; subst end.
  unfold is_byte in *. unfold get_le32. cbn [nth]. lia.
Qed.

Lemma header_length num prev pub nonce : length pub = 32%nat -> length nonce = 24%nat ->
  length (header_plain num prev pub nonce) = 64%nat.
Proof. intros H1 H2. unfold header_plain, put_le32. rewrite !app_length. simpl. lia. Qed.

Lemma header_fields num prev pub nonce : num < 2 ^ 32 -> prev < 2 ^ 32 ->
  length pub = 32%nat -> length nonce = 24%nat ->
  let h := header_plain num prev pub nonce in
  h_num h = num /\ h_prev h = prev /\ h_pub h = pub /\ h_nonce h = nonce.
Proof.
  intros Hn Hp Lp Ln h. subst h. unfold header_plain, h_num, h_prev, h_pub, h_nonce.
  change (put_le32 num ++ put_le32 prev ++ pub ++ nonce)
    with (put_le32 num ++ (put_le32 prev ++ pub ++ nonce)).
  split; [|split; [|split]].
  - change 4%nat with (length (put_le32 num)). rewrite firstn_app_exact. now apply get_put_le32.
  - change (skipn 4 (put_le32 num ++ (put_le32 prev ++ pub ++ nonce))) with (put_le32 prev ++ pub ++ nonce).
    change 4%nat with (length (put_le32 prev)). rewrite firstn_app_exact. now apply get_put_le32.
  - change (skipn 8 (put_le32 num ++ (put_le32 prev ++ pub ++ nonce))) with (pub ++ nonce).
    now apply firstn_app_len.
  - change 40%nat with (8 + 32)%nat.
    assert (E : skipn (8 + 32) (put_le32 num ++ put_le32 prev ++ pub ++ nonce) = nonce).
    { change (skipn (8 + 32) (put_le32 num ++ put_le32 prev ++ pub ++ nonce)) with (skipn 32 (pub ++ nonce)).
      now apply skipn_app_len. }
    rewrite E. rewrite <- (app_nil_r nonce) at 1. now apply firstn_app_len.
Qed.

(** The parts of a genuine ciphertext. *)
Lemma ct_parts hn hb body : length hn = 24%nat -> length hb = 80%nat ->
  let ct := hn ++ hb ++ body in
  ct_nonce ct = hn /\ ct_header ct = hb /\ ct_body ct = body /\ (104 <= length ct)%nat.
Proof.
  intros L1 L2 ct. subst ct. unfold ct_nonce, ct_header, ct_body. split; [|split; [|split]].
  - now apply firstn_app_len.
  - rewrite skipn_app_len by auto. now apply firstn_app_len.
  - rewrite app_assoc. apply skipn_app_len. rewrite app_length. lia.
  - rewrite !app_length. lia.
Qed.

Lemma ct_ext ct ct' : ct_nonce ct = ct_nonce ct' -> ct_header ct = ct_header ct' -> ct_body ct = ct_body ct' -> ct = ct'.
Proof.
  unfold ct_nonce, ct_header, ct_body. intros H1 H2 H3.
  assert (S : forall a b (l : bytes), skipn a (skipn b l) = skipn (b + a) l).
  { intros a b. induction b; intros l; simpl; auto. destruct l; auto. now rewrite skipn_nil. }
  rewrite <- (firstn_skipn 24 ct), <- (firstn_skipn 24 ct'), H1. f_equal.
  rewrite <- (firstn_skipn 80 (skipn 24 ct)), <- (firstn_skipn 80 (skipn 24 ct')), H2. f_equal.
  rewrite !S. exact H3.
Qed.

(** * Points *)

Lemma of_be_rev p : of_be (rev p) = of_le p.
Proof.
  induction p as [|x p IH]; [reflexivity|]. cbn [rev of_le]. unfold of_be in *.
  rewrite fold_left_app. cbn [fold_left]. rewrite IH. lia.
Qed.

(** * Failed decryption *)

Section Decrypt.
Variable hmac : bytes -> bytes -> bytes.
Variable sha256 : bytes -> bytes.
Variable x25519 : bytes -> bytes -> option bytes.
Variable unseal : bytes -> bytes -> bytes -> option bytes.

(** Some saved key opens [ct] to [m]; [sv'] is the map without that key. *)
Definition opened_by_saved (sv : saved_map) (ct m : bytes) (sv' : saved_map) : Prop :=
  exists hk h k, unseal hk (ct_nonce ct) (ct_header ct) = Some h /\ lookup sv hk (h_num h) = Some k /\
    unseal (sk_key k) (h_nonce h) (ct_body ct) = Some m /\
    (forall hk' n, lookup sv' hk' n = if eqb hk' hk && eqb n (h_num h) then None else lookup sv hk' n).

Lemma lookup_remove sv hk keys n hk' n' : mget sv hk = Some keys ->
  lookup (match mdel keys n with [] => mdel sv hk | _ => mset sv hk (mdel keys n) end) hk' n' =
  if eqb hk' hk && eqb n' n then None else lookup sv hk' n'.
Proof.
  intros E. unfold lookup.
  assert (A : mget (mdel keys n) n' = if eqb n' n then None else mget keys n') by apply mget_mdel.
  destruct (mdel keys n) as [|kv rest] eqn:D.
  - rewrite mget_mdel. destruct (eqb_spec hk' hk) as [->|Hne]; cbn [andb]; auto.
    rewrite E. destruct (eqb n' n); auto. 
  - rewrite mget_mset. destruct (eqb_spec hk' hk) as [->|Hne]; cbn [andb]; auto.
    rewrite E. exact A.
Qed.

Lemma try_saved_spec order : forall sv ct,
  match try_saved unseal order sv ct with
  | None => True
  | Some (sv', m) => (sv' = sv /\ m = []) \/ opened_by_saved sv ct m sv'
  end.
Proof.
  induction order as [|hk rest IH]; intros sv ct; cbn [try_saved]; [left; auto|].
  destruct (mget sv hk) as [keys|] eqn:E; [|apply IH].
  destruct (unseal hk (ct_nonce ct) (ct_header ct)) as [h|] eqn:U; [|apply IH].
  destruct (negb (N.of_nat (length h) =? 64)); [apply IH|].
  destruct (mget keys (h_num h)) as [k|] eqn:G; [|left; auto].
  destruct (unseal (sk_key k) (h_nonce h) (ct_body ct)) as [m|] eqn:B; [|exact I].
  right. exists hk, h, k. split; [auto|]. split; [unfold lookup; now rewrite E|]. split; [auto|].
  intros hk' n. now apply lookup_remove.
Qed.

Lemma set_saved_id r : set_saved r (saved r) = r.
Proof. now destruct r. Qed.

Lemma decrypt_current_fail now r h ct r' : decrypt_current hmac unseal now r h ct = (r', Fail) -> r' = r.
Proof.
  unfold decrypt_current. destruct (negb _); [congruence|].
  destruct (save_keys _ _ _ _ _); try congruence. destruct (unseal _ _ _); congruence.
Qed.

Lemma decrypt_next_fail now r h ct r' : decrypt_next hmac sha256 x25519 unseal now r h ct = (r', Fail) -> r' = r.
Proof.
  unfold decrypt_next. destruct (negb _); [congruence|]. destruct (ratchet_flag r); [congruence|].
  destruct (save_keys _ _ _ _ _); try congruence. destruct (x25519 _ _); try congruence.
  destruct (save_keys _ _ _ _ _); try congruence. destruct (unseal _ _ _); congruence.
Qed.

Lemma decrypt_fail order now r ct r' : decrypt hmac sha256 x25519 unseal order now r ct = (r', Fail) ->
  r' = r \/ exists sv', opened_by_saved (saved r) ct [] sv' /\ r' = set_saved r sv'.
Proof.
  unfold decrypt. destruct (_ <? 104); [left; congruence|].
  pose proof (try_saved_spec order (saved r) ct) as T.
  destruct (try_saved unseal order (saved r) ct) as [[sv m]|]; [|left; congruence].
  destruct m as [|x m]; [|discriminate]. cbv zeta.
  assert (A : forall s, (if is_zero_key (recv_header s) then None
                         else unseal (recv_header s) (ct_nonce ct) (ct_header ct)) =
                        (if is_zero_key (recv_header s) then None
                         else unseal (recv_header s) (ct_nonce ct) (ct_header ct))) by reflexivity.
  intros H.
  assert (E : r' = set_saved r sv).
  { destruct (if is_zero_key _ then None else _).
    - now apply decrypt_current_fail in H.
    - destruct (unseal (next_recv_header _) _ _); [now apply decrypt_next_fail in H|congruence]. }
  destruct T as [[-> _]|T].
  - left. now rewrite E, set_saved_id.
  - right. eauto.
Qed.
End Decrypt.
