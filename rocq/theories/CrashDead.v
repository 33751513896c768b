(** Lemmas about a ratchet that was not saved after a new chain was begun. *)
From Verif Require Import Base RatchetModel RatchetProofs RatchetConvModel CrashModel.
Local Open Scope N_scope.

Section Dead.
Variable hmac : bytes -> bytes -> bytes.
Variable sha256 : bytes -> bytes.
Variable x25519 : bytes -> bytes -> option bytes.
Variable base : bytes -> bytes.
Variable seal : bytes -> bytes -> bytes -> bytes.
Variable unseal : bytes -> bytes -> bytes -> option bytes.
Hypothesis box : forall k n m, unseal k n (seal k n m) = Some m.
Hypothesis seal_length : forall k n m, length (seal k n m) = (length m + 16)%nat.
Hypothesis commit : forall k n k' n' m x, unseal k n (seal k' n' m) = Some x -> k = k'.
Hypothesis base_length : forall x, length (base x) = 32%nat.

Notation chain_at := (chain_at hmac).
Notation mkey_at := (mkey_at hmac).

Lemma loop_keys now : forall fuel n num c m ks c' m' ks' d,
  save_loop hmac fuel n num now (chain_at c d) m ks = Some (c', m', ks') ->
  (exists d', c' = chain_at c d') /\ (m' = m \/ exists d', m' = mkey_at c d') /\
  (forall nk, In nk ks' -> In nk ks \/ exists d', sk_key (snd nk) = mkey_at c d') /\ (NoDup (mkeys ks) -> NoDup (mkeys ks')).
Proof.
  induction fuel as [|fuel IH]; intros n num c m ks c' m' ks' d E; cbn [save_loop] in E; [discriminate|].
  destruct (n <=? num).
  - change (hmac (chain_at c d) step_label) with (chain_at c (S d)) in E. apply IH in E as (A & B & C & D).
    split; [exact A|]. split; [|split; [|intros ND; apply D; destruct (n <? num); auto; now apply NoDup_mset]].
    + right. destruct B as [->|B]; [exists d; reflexivity|exact B].
    + intros nk I. apply C in I as [I|I]; [|now right]. destruct (n <? num); [|now left].
      assert (X : forall (l : key_map) v, In nk (mset l n v) -> In nk l \/ snd nk = v).
      { clear. intros l v. induction l as [|[a b] l IH]; cbn [mset In]; [intros [<-|[]]; auto|].
        destruct (eqb n a); cbn [In]; intros [<-|I]; auto. apply IH in I as [I|I]; auto. }
      apply X in I as [I|I]; [now left|]. right. exists d. now rewrite I.
  - injection E as <- <- <-. split; [exists d; reflexivity|]. split; [now left|]. split; auto.
Qed.

Lemma save_keys_keys now c0 d num count c m ks : save_keys hmac now (chain_at c0 d) num count = Keys c m ks ->
  (exists d', c = chain_at c0 d') /\ (exists d', m = mkey_at c0 d') /\
  (forall nk, In nk ks -> exists d', sk_key (snd nk) = mkey_at c0 d') /\ NoDup (mkeys ks).
Proof.
  unfold save_keys. destruct (N.ltb_spec num count) as [H|H]; [discriminate|]. destruct (80 <? num - count); [discriminate|].
  destruct (save_loop _ _ _ _ _ _ _ _) as [[[x y] z]|] eqn:E; [|discriminate]. intros Q. injection Q as <- <- <-.
  revert E. change 82%nat with (S 81). generalize 81%nat. intros f E. cbn [save_loop] in E. destruct (N.leb_spec count num); [|lia].
  change (hmac (chain_at c0 d) step_label) with (chain_at c0 (S d)) in E.
  apply loop_keys in E as (A & B & C & D). split; [exact A|]. split; [|split].
  - destruct B as [->|B]; [exists d; reflexivity|exact B].
  - intros nk I. apply C in I as [I|I]; [|exact I]. destruct (count <? num); [|destruct I]. cbn in I. destruct I as [<-|[]].
    exists d. reflexivity.
  - apply D. destruct (count <? num); cbn; constructor; auto. constructor.
Qed.

(** A property of all saved keys is kept. *)
Definition all_saved (P : bytes -> Prop) (sv : saved_map) : Prop :=
  forall hk n k, lookup sv hk n = Some k -> P (sk_key k).

Lemma In_mset {K V} `{EqB K} (m : list (K * V)) k v x : In x (mset m k v) -> In x m \/ x = (k, v).
Proof.
  induction m as [|[a b] m IH]; cbn [mset In]; [intros [<-|[]]; auto|].
  destruct (eqb k a); cbn [In]; intros [<-|I]; auto. apply IH in I as [I|I]; auto.
Qed.
Lemma In_mdel {K V} `{EqB K} (m : list (K * V)) k x : In x (mdel m k) -> In x m.
Proof. unfold mdel. intros I. now apply filter_In in I. Qed.

Lemma all_merge P sv hk ks : all_saved P sv -> NoDup (mkeys ks) -> (forall nk, In nk ks -> P (sk_key (snd nk))) ->
  all_saved P (merge_saved sv hk ks).
Proof.
  intros A D B hk' n k L. rewrite lookup_merge in L by auto. destruct (eqb hk' hk); [|eauto].
  destruct (mget ks n) as [v|] eqn:G; [|eauto]. injection L as <-. apply mget_In in G. exact (B _ G).
Qed.

Lemma all_try P ct order : forall sv sv' m, all_saved P sv -> try_saved unseal order sv ct = Some (sv', m) -> all_saved P sv'.
Proof.
  induction order as [|hk rest IH]; intros sv sv' m A E; cbn [try_saved] in E; [injection E as <- _; auto|].
  destruct (mget sv hk) as [keys|] eqn:G; [|eauto]. destruct (unseal hk _ _) as [h|]; [|eauto].
  destruct (negb _); [eauto|]. destruct (mget keys (h_num h)) as [k|]; [|injection E as <- _; auto].
  destruct (unseal (sk_key k) _ _) as [msg|]; [|discriminate]. injection E as <- _.
  intros hk' n' k' L. rewrite lookup_remove in L by auto. destruct (_ && _); [discriminate|]. eauto.
Qed.

Lemma keys_try ct order : forall sv sv' m hk, try_saved unseal order sv ct = Some (sv', m) -> In hk (mkeys sv') -> In hk (mkeys sv).
Proof.
  induction order as [|hk rest IH]; intros sv sv' m hk' E I; cbn [try_saved] in E; [injection E as <- _; auto|].
  destruct (mget sv hk) as [keys|] eqn:G; [|eauto]. destruct (unseal hk _ _) as [h|]; [|eauto].
  destruct (negb _); [eauto|]. destruct (mget keys (h_num h)) as [k|]; [|injection E as <- _; auto].
  destruct (unseal (sk_key k) _ _) as [msg|]; [|discriminate]. injection E as <- _.
  unfold mkeys in *. apply in_map_iff in I as (e & <- & I). destruct (mdel keys (h_num h)).
  - apply In_mdel in I. now apply in_map.
  - apply In_mset in I as [I| ->]; [now apply in_map|]. apply mget_In in G. now apply (in_map fst) in G.
Qed.

Lemma keys_merge sv hk ks k : In k (mkeys (merge_saved sv hk ks)) -> In k (mkeys sv) \/ k = hk.
Proof. intros I. apply mkeys_merge in I. tauto. Qed.

(** A sealed header opens only under its own key. *)
Lemma try_other ct H order : forall sv, (forall k x, unseal k (ct_nonce ct) (ct_header ct) = Some x -> k = H) ->
  ~ In H (mkeys sv) -> try_saved unseal order sv ct = Some (sv, []).
Proof.
  induction order as [|hk rest IH]; intros sv C Hn; cbn [try_saved]; [reflexivity|].
  destruct (mget sv hk) as [keys|] eqn:G; [|auto]. destruct (unseal hk _ _) as [h|] eqn:U; [|auto].
  apply C in U. subst hk. exfalso. apply Hn. now apply mget_Some_keys in G.
Qed.
Lemma try_mine ct H (P : bytes -> Prop) order : forall sv,
  (forall k x, unseal k (ct_nonce ct) (ct_header ct) = Some x -> k = H) ->
  (forall k n, P k -> unseal k n (ct_body ct) = None) -> all_saved P sv ->
  try_saved unseal order sv ct = Some (sv, []) \/ try_saved unseal order sv ct = None.
Proof.
  induction order as [|hk rest IH]; intros sv C Hp A; cbn [try_saved]; auto.
  destruct (mget sv hk) as [keys|] eqn:G; [|auto]. destruct (unseal hk _ _) as [h|]; [|auto].
  destruct (negb _); [auto|]. destruct (mget keys (h_num h)) as [k|] eqn:G2; [|auto].
  rewrite Hp; [now right|]. apply (A hk (h_num h)). unfold lookup. now rewrite G.
Qed.

(** ** The two ratchets *)
Variables a0 b1 : ratchet.
Variable drawn : bytes -> Prop.
Notation H2 := (next_send_header a0).
Notation H3 := (next_recv_header a0).
Definition km_of (root shared : bytes) : bytes := sha256 (root_update_label ++ root ++ shared).
(** The chain alice begins with the key [p], and bob with the key [q]. *)
Definition chain_a (p c : bytes) : Prop :=
  drawn p /\ exists s, x25519 p (recv_public a0) = Some s /\ c = hmac (km_of (root_key a0) s) chain_label.
Definition chain_b (q c : bytes) : Prop :=
  drawn q /\ exists s, x25519 q (recv_public b1) = Some s /\ c = hmac (km_of (root_key b1) s) chain_label.
(** The chain alice expects of bob when she has begun hers with [p]. *)
Definition awaits (p q c : bytes) : Prop :=
  exists s s', x25519 p (recv_public a0) = Some s /\ x25519 p (base q) = Some s' /\
    c = hmac (km_of (hmac (km_of (root_key a0) s) root_label) s') chain_label.

Hypothesis a_flag : ratchet_flag a0 = true.
Hypothesis b_flag : ratchet_flag b1 = true.
Hypothesis b_header : recv_header b1 = H2.
Hypothesis b_next : next_send_header b1 = H3.
Hypothesis H2_nonzero : is_zero_key H2 = false.
Hypothesis H3_recv : recv_header a0 <> H3.
Hypothesis H3_saved : ~ In H3 (mkeys (saved a0)).
(** Message keys of different chains differ. *)
Hypothesis chains_ab : forall p c i j, chain_a p c -> mkey_at (recv_chain b1) i <> mkey_at c j.
Hypothesis saved_ab : forall p c j, chain_a p c -> all_saved (fun k => k <> mkey_at c j) (saved b1).
Hypothesis chains_ba : forall p q c c' i j, drawn p -> chain_b q c -> awaits p q c' -> mkey_at c' i <> mkey_at c j.

(** The messages of the two since. *)
Definition from_a (ct : bytes) : Prop :=
  exists hn h mn p c j m, length hn = 24%nat /\ length h = 64%nat /\ chain_a p c /\
    ct = hn ++ seal H2 hn h ++ seal (mkey_at c j) mn m.
Definition from_b (ct : bytes) : Prop :=
  exists hn h mn q c j m, length hn = 24%nat /\ length h = 64%nat /\ h_pub h = base q /\ chain_b q c /\
    ct = hn ++ seal H3 hn h ++ seal (mkey_at c j) mn m.

Definition inv_a (r : ratchet) : Prop :=
  recv_header r = recv_header a0 /\ next_recv_header r = H3 /\ ~ In H3 (mkeys (saved r)) /\
  ((ratchet_flag r = true /\ next_send_header r = H2 /\ root_key r = root_key a0 /\ recv_public r = recv_public a0) \/
   (ratchet_flag r = false /\ send_header r = H2 /\ exists p s j, drawn p /\ x25519 p (recv_public a0) = Some s /\
      send_private r = p /\ root_key r = hmac (km_of (root_key a0) s) root_label /\
      send_chain r = chain_at (hmac (km_of (root_key a0) s) chain_label) j)).
Definition inv_b (r : ratchet) : Prop :=
  recv_header r = H2 /\ (exists d, recv_chain r = chain_at (recv_chain b1) d) /\
  all_saved (fun k => forall p c j, chain_a p c -> k <> mkey_at c j) (saved r) /\
  ((ratchet_flag r = true /\ next_send_header r = H3 /\ root_key r = root_key b1 /\ recv_public r = recv_public b1) \/
   (ratchet_flag r = false /\ send_header r = H3 /\ exists q s j, drawn q /\ x25519 q (recv_public b1) = Some s /\
      send_private r = q /\ send_chain r = chain_at (hmac (km_of (root_key b1) s) chain_label) j)).
Definition inv_after (s : after) : Prop :=
  inv_a (af_r s true) /\ inv_b (af_r s false) /\ Forall from_a (af_sent s true) /\ Forall from_b (af_sent s false).

Lemma plain_length num prev x mn : length mn = 24%nat -> length (header_plain num prev (base x) mn) = 64%nat.
Proof. intros. now apply header_length. Qed.
Lemma plain_pub num prev x mn : h_pub (header_plain num prev (base x) mn) = base x.
Proof. unfold h_pub, header_plain, put_le32. cbn [app skipn]. now apply firstn_app_len. Qed.

Lemma say_a r priv hn mn msg r' ct : inv_a r -> drawn priv -> length hn = 24%nat -> length mn = 24%nat ->
  encrypt hmac sha256 x25519 base seal r priv hn mn msg = (r', Some ct) -> inv_a r' /\ from_a ct.
Proof.
  intros (I1 & I2 & I3 & I4) Dp L1 L2 E. unfold encrypt, ratchet_step in E.
  destruct I4 as [(F & N1 & R & P)|(F & S & p & s & j & D & X & SP & R & C)]; rewrite F in E.
  - rewrite P in E. destruct (x25519 priv (recv_public a0)) as [s|] eqn:X; [|discriminate E].
    cbn [negb send_chain send_count prev_count send_private send_header root_key recv_header next_send_header next_recv_header recv_chain recv_public recv_count ratchet_flag saved my_half their_half kx_private] in E.
    rewrite R, N1 in E. injection E as <- <-. split.
    + split; [exact I1|]. split; [exact I2|]. split; [exact I3|]. right. split; [reflexivity|]. split; [reflexivity|].
      exists priv, s, 1%nat. repeat split; auto.
    + eexists hn, _, mn, priv, _, 0%nat, msg. split; [exact L1|]. split; [apply plain_length, L2|].
      split; [|reflexivity]. split; [exact Dp|]. exists s. split; [exact X|reflexivity].
  - cbn [negb] in E. rewrite S, C in E. injection E as <- <-. split.
    + split; [exact I1|]. split; [exact I2|]. split; [exact I3|]. right. split; [exact F|]. split; [reflexivity|].
      exists p, s, (Datatypes.S j). repeat split; auto.
    + eexists hn, _, mn, p, _, j, msg. split; [exact L1|]. split; [apply plain_length, L2|].
      split; [|reflexivity]. split; [exact D|]. exists s. split; [exact X|reflexivity].
Qed.

Lemma say_b r priv hn mn msg r' ct : inv_b r -> drawn priv -> length hn = 24%nat -> length mn = 24%nat ->
  encrypt hmac sha256 x25519 base seal r priv hn mn msg = (r', Some ct) -> inv_b r' /\ from_b ct.
Proof.
  intros (I1 & I2 & I3 & I4) Dp L1 L2 E. unfold encrypt, ratchet_step in E.
  destruct I4 as [(F & N1 & R & P)|(F & S & q & s & j & D & X & SP & C)]; rewrite F in E.
  - rewrite P in E. destruct (x25519 priv (recv_public b1)) as [s|] eqn:X; [|discriminate E].
    cbn [negb send_chain send_count prev_count send_private send_header root_key recv_header next_send_header next_recv_header recv_chain recv_public recv_count ratchet_flag saved my_half their_half kx_private] in E.
    rewrite R, N1 in E. injection E as <- <-. split.
    + split; [exact I1|]. split; [exact I2|]. split; [exact I3|]. right. split; [reflexivity|]. split; [reflexivity|].
      exists priv, s, 1%nat. repeat split; auto.
    + eexists hn, _, mn, priv, _, 0%nat, msg. split; [exact L1|]. split; [apply plain_length, L2|].
      split; [apply plain_pub|]. split; [|reflexivity]. split; [exact Dp|]. exists s. split; [exact X|reflexivity].
  - cbn [negb] in E. rewrite S, C, SP in E. injection E as <- <-. split.
    + split; [exact I1|]. split; [exact I2|]. split; [exact I3|]. right. split; [exact F|]. split; [reflexivity|].
      exists q, s, (Datatypes.S j). repeat split; auto.
    + eexists hn, _, mn, q, _, j, msg. split; [exact L1|]. split; [apply plain_length, L2|].
      split; [apply plain_pub|]. split; [|reflexivity]. split; [exact D|]. exists s. split; [exact X|reflexivity].
Qed.

Definition silent (x : ratchet * outcome) : Prop := forall m, snd x <> Got m.

(** Bob cannot read what alice sends now. *)
Lemma b_deaf r ct order now : inv_b r -> from_a ct -> silent (decrypt hmac sha256 x25519 unseal order now r ct).
Proof.
  intros (I1 & (d & I2) & I3 & _) (hn & h & mn & p & c & j & m & L1 & L2 & Ca & ->).
  destruct (ct_parts hn (seal H2 hn h) (seal (mkey_at c j) mn m) L1) as (P1 & P2 & P3 & P4); [rewrite seal_length, L2; reflexivity|].
  set (ct := hn ++ seal H2 hn h ++ seal (mkey_at c j) mn m) in *. clearbody ct.
  unfold decrypt. destruct (_ <? 104); [intros x; discriminate|].
  destruct (try_mine ct H2 (fun k => k <> mkey_at c j) order (saved r)) as [T|T].
  - intros k x. rewrite P1, P2. apply commit.
  - intros k n Hk. rewrite P3. destruct (unseal k n _) eqn:U; auto. apply commit in U. contradiction.
  - intros hk n k A. apply (I3 _ _ _ A _ _ j Ca).
  - rewrite T, set_saved_id, I1, H2_nonzero, P1, P2, box. unfold decrypt_current. destruct (negb _); [intros x; discriminate|].
    rewrite I2. destruct (save_keys _ _ _ _ _) as [| |c' mk ks] eqn:Q; try (intros x; discriminate).
    apply save_keys_keys in Q as (_ & (d' & ->) & _ & _). rewrite P3.
    destruct (unseal (mkey_at (recv_chain b1) d') (h_nonce h) (seal (mkey_at c j) mn m)) eqn:U; [|intros x; discriminate].
    apply commit in U. exfalso. now apply (chains_ab p c d' j Ca).
  - rewrite T. intros x. discriminate.
Qed.

(** Nor alice what bob sends. *)
Lemma a_deaf r ct order now : inv_a r -> from_b ct -> silent (decrypt hmac sha256 x25519 unseal order now r ct).
Proof.
  intros (I1 & I2 & I3 & I4) (hn & h & mn & q & c & j & m & L1 & L2 & LP & Cb & ->).
  destruct (ct_parts hn (seal H3 hn h) (seal (mkey_at c j) mn m) L1) as (P1 & P2 & P3 & P4); [rewrite seal_length, L2; reflexivity|].
  set (ct := hn ++ seal H3 hn h ++ seal (mkey_at c j) mn m) in *. clearbody ct.
  unfold decrypt. destruct (_ <? 104); [intros x; discriminate|].
  rewrite (try_other ct H3); auto; [|intros k x; rewrite P1, P2; apply commit].
  rewrite set_saved_id, I1, I2, P1, P2, box.
  destruct (if is_zero_key (recv_header a0) then None else unseal (recv_header a0) hn (seal H3 hn h)) as [h'|] eqn:U.
  { destruct (is_zero_key (recv_header a0)); [discriminate|]. apply commit in U. contradiction. }
  unfold decrypt_next. destruct (negb _); [intros x; discriminate|].
  destruct I4 as [(F & _)|(F & S & p & s & jj & D & X & SP & R & C)]; rewrite F; [intros x; discriminate|].
  destruct (save_keys _ _ _ _ _) as [| |c1 mk1 ks1]; try (intros x; discriminate).
  rewrite SP, LP. destruct (x25519 p (base q)) as [s'|] eqn:X2; [|intros x; discriminate].
  rewrite R. change (sha256 (root_update_label ++ hmac (km_of (root_key a0) s) root_label ++ s'))
    with (km_of (hmac (km_of (root_key a0) s) root_label) s').
  set (c' := hmac (km_of (hmac (km_of (root_key a0) s) root_label) s') chain_label).
  destruct (save_keys hmac now c' (h_num h) 0) as [| |c2 mk2 ks2] eqn:Q; try (intros x; discriminate).
  change c' with (chain_at c' 0) in Q. apply save_keys_keys in Q as (_ & (d' & ->) & _ & _). rewrite P3.
  destruct (unseal (mkey_at c' d') (h_nonce h) (seal (mkey_at c j) mn m)) eqn:U2; [|intros x; discriminate].
  apply commit in U2. exfalso. apply (chains_ba p q c c' d' j); auto. exists s, s'. auto.
Qed.

Lemma hear_other r ct order now r' m : unseal (next_recv_header r) (ct_nonce ct) (ct_header ct) = None ->
  decrypt hmac sha256 x25519 unseal order now r ct = (r', Got m) ->
  (inv_a r -> inv_a r') /\ (inv_b r -> inv_b r').
Proof.
  intros No E. unfold decrypt in E. destruct (_ <? 104); [discriminate|].
  destruct (try_saved unseal order (saved r) ct) as [[sv x]|] eqn:T; [|discriminate].
  assert (SA : inv_a r -> inv_a (set_saved r sv)).
  { intros (I1 & I2 & I3 & I4). repeat (split; [assumption|]). split; [|exact I4]. cbn [set_saved saved]. intros X. apply I3. eapply keys_try; eauto. }
  assert (SB : inv_b r -> inv_b (set_saved r sv)).
  { intros (I1 & I2 & I3 & I4). repeat (split; [assumption|]). split; [|exact I4]. cbn [set_saved saved]. eapply all_try; eauto. }
  destruct x as [|x0 x]; [|injection E as <- _; auto].
  set (r1 := set_saved r sv) in *. assert (No1 : unseal (next_recv_header r1) (ct_nonce ct) (ct_header ct) = None) by exact No.
  clearbody r1. cbv zeta in E. rewrite No1 in E.
  destruct (if is_zero_key (recv_header r1) then None else unseal (recv_header r1) (ct_nonce ct) (ct_header ct)) as [h|]; [|discriminate].
  unfold decrypt_current in E. destruct (negb _); [discriminate|].
  destruct (save_keys hmac now (recv_chain r1) (h_num h) (recv_count r1)) as [| |c mk ks] eqn:Q; try discriminate.
  destruct (unseal mk (h_nonce h) (ct_body ct)); [|discriminate]. injection E as <- _. split.
  - intros I. apply SA in I. destruct I as (I1 & I2 & I3 & I4). split; [exact I1|]. split; [exact I2|]. split; [|exact I4].
    cbn [saved]. intros X. apply keys_merge in X as [X|X]; [auto|]. rewrite I1 in X. now apply H3_recv.
  - intros I. apply SB in I. destruct I as (I1 & (d & I2) & I3 & I4). rewrite I2 in Q. apply save_keys_keys in Q as (Q1 & _ & Q3 & Q4).
    split; [exact I1|]. split; [exact Q1|]. split; [|exact I4]. cbn [saved]. apply all_merge; auto.
    intros nk X p c0 j Ca. destruct (Q3 _ X) as (d' & ->). now apply (chains_ab p c0).
Qed.

Lemma act_dead s x : inv_after s -> acts_ok hmac sha256 x25519 base seal unseal drawn s [x] ->
  inv_after (fst (do_act hmac sha256 x25519 base seal unseal s x)) /\
  match x with Hear _ _ _ _ => snd (do_act hmac sha256 x25519 base seal unseal s x) = None | _ => True end.
Proof.
  intros (IA & IB & FA & FB) [OK _]. destruct x as [who priv hn mn msg|who order now k|who order now ct]; cbn [do_act].
  - destruct OK as (Dp & L1 & L2). split; auto. destruct (encrypt hmac sha256 x25519 base seal (af_r s who) priv hn mn msg) as [r' [ct|]] eqn:E.
    + destruct who.
      * destruct (say_a _ _ _ _ _ _ _ IA Dp L1 L2 E) as [A B]. cbn [fst]. unfold inv_after, set. cbn [af_r af_sent Bool.eqb].
        repeat (split; auto). apply Forall_app. auto.
      * destruct (say_b _ _ _ _ _ _ _ IB Dp L1 L2 E) as [A B]. cbn [fst]. unfold inv_after, set. cbn [af_r af_sent Bool.eqb].
        repeat (split; auto). apply Forall_app. auto.
    + cbn. repeat split; auto; apply IA || apply IB.
  - destruct (nth_error (af_sent s (negb who)) k) as [ct|] eqn:G; [|cbn; split; auto; split; auto].
    unfold hear. assert (Q : silent (decrypt hmac sha256 x25519 unseal (order (mkeys (saved (af_r s who)))) now (af_r s who) ct)).
    { apply nth_error_In in G. destruct who; cbn [negb] in G.
      - apply a_deaf; auto. rewrite Forall_forall in FB. auto.
      - apply b_deaf; auto. rewrite Forall_forall in FA. auto. }
    destruct (decrypt _ _ _ _ _ _ _ _) as [r' [m| |]]; [exfalso; now apply (Q m)| |]; cbn; split; auto; split; auto.
  - unfold hear. split; auto.
    destruct (decrypt hmac sha256 x25519 unseal (order (mkeys (saved (af_r s who)))) now (af_r s who) ct) as [r' [m| |]] eqn:E;
      [|cbn; split; auto|cbn; split; auto].
    destruct (hear_other _ _ _ _ _ _ OK E) as [A B]. cbn [fst]. unfold inv_after, set. cbn [af_r af_sent].
    destruct who; cbn [Bool.eqb]; auto.
Qed.

Lemma dead l : forall s, inv_after s -> acts_ok hmac sha256 x25519 base seal unseal drawn s l ->
  Forall (fun x => match fst x with Hear _ _ _ _ => snd x = None | _ => True end) (do_acts hmac sha256 x25519 base seal unseal s l).
Proof.
  induction l as [|x l IH]; intros s I OK; cbn [do_acts]; constructor.
  - destruct OK as [OK _]. cbn [fst snd]. refine (proj2 (act_dead s x I _)). split; auto. exact Logic.I.
  - destruct OK as [OK OK']. apply IH; auto. refine (proj1 (act_dead s x I _)). split; auto. exact Logic.I.
Qed.

Lemma start_after : inv_after (mkAfter (fun who => if who then a0 else b1) (fun _ => [])).
Proof.
  split; [|split; [|split; constructor]]; cbn [af_r].
  - split; [reflexivity|]. split; [reflexivity|]. split; [exact H3_saved|]. left. auto.
  - split; [exact b_header|]. split; [exists 0%nat; reflexivity|]. split; [|left; auto].
    intros hk n k A p c j Ca. exact (saved_ab p c j Ca hk n k A).
Qed.
End Dead.
