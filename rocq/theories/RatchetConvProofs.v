(** The real conversation behaves as its specification. *)
From Verif Require Import Base XdrModel RpcModel RatchetModel RatchetProofs RatchetConvModel.
Local Open Scope N_scope.

(** lia without the hypotheses that make it slow here. *)
Ltac lia :=
  repeat match goal with
  | H : ?A -> _ |- _ => match type of A with Prop => clear H end
  | H : @eq bool _ _ |- _ => clear H
  | H : _ /\ _ |- _ => destruct H
  end; Lia.lia.

(** Epochs are sent in turns. *)
Definition sender (e : nat) : bool := Nat.even e.

Definition cnt (log : list entry) (e : nat) : N :=
  N.of_nat (length (filter (fun en => Nat.eqb (en_epoch en) e) log)).

Lemma cnt_cons en log e : cnt (en :: log) e = (if Nat.eqb (en_epoch en) e then 1 else 0) + cnt log e.
Proof. unfold cnt. cbn [filter]. destruct (Nat.eqb _ _); cbn [length]; lia. Qed.

Lemma cnt_le log e : cnt log e <= N.of_nat (length log).
Proof.
  unfold cnt. induction log as [|en log IH]; cbn [filter length]; [lia|].
  destruct (Nat.eqb _ _); cbn [length]; lia.
Qed.

Section Conv.
Variable hmac : bytes -> bytes -> bytes.
Variable sha256 : bytes -> bytes.
Variable x25519 : bytes -> bytes -> option bytes.
Variable base : bytes -> bytes.
Variable seal : bytes -> bytes -> bytes -> bytes.
Variable unseal : bytes -> bytes -> bytes -> option bytes.
Variable xs : nat -> bytes.
Variable sk : bytes.
Variable E : nat.

Notation hk := (hk hmac sha256 x25519 base xs sk).
Notation km := (km hmac sha256 x25519 base xs sk).
Notation ck := (ck hmac sha256 x25519 base xs sk).
Notation mk := (mk hmac sha256 x25519 base xs sk).

Hypothesis box : forall k n m, unseal k n (seal k n m) = Some m.
Hypothesis seal_length : forall k n m, length (seal k n m) = (length m + 16)%nat.
Hypothesis base_length : forall x, length (base x) = 32%nat.
Hypothesis dh_ok : forall e, x25519 (xs (S e)) (base (xs e)) = Some (dh x25519 base xs (S e)) /\
                             x25519 (xs e) (base (xs (S e))) = Some (dh x25519 base xs (S e)).
Hypothesis hk_inj : forall e e', (1 <= e <= E)%nat -> (1 <= e' <= E)%nat -> hk e = hk e' -> e = e'.
Hypothesis hk_nonzero : forall e, (1 <= e <= E)%nat -> is_zero_key (hk e) = false.

Notation step := (step hmac sha256 x25519 base seal unseal xs).
Notation decrypt := (decrypt hmac sha256 x25519 unseal).
Notation unforged := (unforged hmac sha256 x25519 base unseal xs sk).

Lemma ck_chain e i : ck e i = chain_at hmac (ck e 0) i.
Proof. induction i as [|i IH]; [reflexivity|]. cbn [RatchetConvModel.ck chain_at]. now rewrite IH. Qed.

Lemma mk_mkey e a i : mkey_at hmac (ck e a) i = mk e (N.of_nat (a + i)).
Proof.
  unfold mkey_at, RatchetConvModel.mk. rewrite Nat2N.id. rewrite (ck_chain e a), chain_at_add, <- ck_chain. reflexivity.
Qed.

(** The real ciphertext of a log entry. *)
Definition genuine (log : list entry) (en : entry) : Prop :=
  let '(e, i, p) := en_label en in
  exists hn mn, length hn = 24%nat /\ length mn = 24%nat /\
    en_ct en = hn ++ seal (hk e) hn (header_plain i p (base (xs e)) mn) ++ seal (mk e i) mn (en_plain en) /\
    (1 <= e)%nat /\ en_from en = sender e /\ i < cnt log e /\ p = cnt log (e - 2).

Record log_inv (log : list entry) : Prop := {
  li_genuine : forall en, In en log -> genuine log en;
  li_nonce : forall en en', In en log -> In en' log -> ct_nonce (en_ct en) = ct_nonce (en_ct en') -> en = en';
  li_label : forall en en', In en log -> In en' log -> en_epoch en = en_epoch en' -> en_index en = en_index en' -> en = en'
}.

Definition known (log : list entry) (p : iparty) (e : nat) : N :=
  if (e =? recv_epoch p)%nat then i_high p else cnt log e.

Record party_inv (log : list entry) (who : bool) (r : ratchet) (p : iparty) : Prop := {
  pi_cur : (1 <= i_cur p)%nat;
  pi_parity : sender (i_cur p) = if i_turn p then negb who else who;
  pi_sent : i_sent p = cnt log (if i_turn p then pred (i_cur p) else i_cur p);
  pi_prev : i_turn p = false -> i_prev p = cnt log (i_cur p - 2);
  pi_high : i_high p <= cnt log (recv_epoch p);
  pi_got : forall e i, In (e, i) (i_got p) ->
    sender e = negb who /\ (1 <= e <= recv_epoch p)%nat /\ i < known log p e;
  pi_root : root_key r = hmac (km (i_cur p)) root_label;
  pi_flag : ratchet_flag r = i_turn p;
  pi_scount : send_count r = i_sent p;
  pi_rcount : recv_count r = i_high p;
  pi_rheader : recv_header r = hk (recv_epoch p);
  pi_rchain : (1 <= recv_epoch p)%nat -> recv_chain r = ck (recv_epoch p) (N.to_nat (i_high p));
  pi_turn_true : i_turn p = true ->
    recv_public r = base (xs (i_cur p)) /\ next_send_header r = hk (S (i_cur p)) /\
    next_recv_header r = hk (S (S (i_cur p)));
  pi_turn_false : i_turn p = false ->
    send_header r = hk (i_cur p) /\ send_chain r = ck (i_cur p) (N.to_nat (i_sent p)) /\
    send_private r = xs (i_cur p) /\ prev_count r = i_prev p /\
    next_send_header r = hk (S (S (i_cur p))) /\ next_recv_header r = hk (S (i_cur p));
  pi_keys : forall k, In k (mkeys (saved r)) -> exists e, (1 <= e <= recv_epoch p)%nat /\ sender e = negb who /\ k = hk e;
  pi_saved : forall e i, (1 <= e <= recv_epoch p)%nat -> sender e = negb who ->
    option_map sk_key (lookup (saved r) (hk e) i) =
    if (i <? known log p e) && negb (mem (e, i) (i_got p)) then Some (mk e i) else None
}.

Definition two (a b : iparty) : Prop :=
  (i_turn a = true -> i_turn b = false /\ i_cur b = i_cur a) /\
  (i_turn b = true -> i_turn a = false /\ i_cur a = i_cur b) /\
  (i_turn a = false -> i_turn b = false -> i_cur a = S (i_cur b) \/ i_cur b = S (i_cur a)).

Record inv (w : world) : Prop := {
  iv_log : log_inv (w_log w);
  iv_party : forall who, party_inv (w_log w) who (w_r w who) (w_i w who);
  iv_two : two (w_i w true) (w_i w false);
  iv_cnt : forall e, (i_cur (w_i w true) < e)%nat -> (i_cur (w_i w false) < e)%nat -> cnt (w_log w) e = 0;
  iv_zero : cnt (w_log w) 0 = 0
}.

Lemma two_sym a b : two a b -> two b a.
Proof. unfold two. intuition. Qed.

Lemma two_who w who : inv w -> two (w_i w who) (w_i w (negb who)).
Proof. intros I. destruct who; [apply iv_two|apply two_sym, iv_two]; auto. Qed.

Lemma cnt_who w who : inv w -> forall e, (i_cur (w_i w who) < e)%nat -> (i_cur (w_i w (negb who)) < e)%nat -> cnt (w_log w) e = 0.
Proof. intros I e. destruct who; cbn [negb]; intros; apply iv_cnt; auto. Qed.

(** ** The parts of a genuine ciphertext *)

Lemma genuine_parts log en : genuine log en -> N.of_nat (length log) < 2 ^ 32 - 1 ->
  exists e i p h mn, en_label en = (e, i, p) /\ length h = 64%nat /\
    h_num h = i /\ h_prev h = p /\ h_pub h = base (xs e) /\ h_nonce h = mn /\
    ct_header (en_ct en) = seal (hk e) (ct_nonce (en_ct en)) h /\
    ct_body (en_ct en) = seal (mk e i) mn (en_plain en) /\
    (104 <= length (en_ct en))%nat /\
    (1 <= e)%nat /\ en_from en = sender e /\ i < cnt log e /\ p = cnt log (e - 2).
Proof.
  unfold genuine. intros G Hl. destruct (en_label en) as [[e i] p].
  destruct G as (hn & mn & L1 & L2 & C & He & Hf & Hi & Hp).
  pose proof (cnt_le log e). pose proof (cnt_le log (e - 2)).
  destruct (header_fields i p (base (xs e)) mn) as (F1 & F2 & F3 & F4); auto; try lia.
  pose proof (header_length i p (base (xs e)) mn (base_length _) L2) as LH.
  destruct (ct_parts hn (seal (hk e) hn (header_plain i p (base (xs e)) mn)) (seal (mk e i) mn (en_plain en)))
    as (P1 & P2 & P3 & P4); auto.
  { rewrite seal_length. lia. }
  exists e, i, p, (header_plain i p (base (xs e)) mn), mn. rewrite C.
  rewrite P1, P2, P3. repeat split; auto.
Qed.

(** ** Sending *)

Lemma sender_S e : sender (S e) = negb (sender e).
Proof. unfold sender. rewrite Nat.even_succ. now rewrite <- Nat.negb_even. Qed.

Lemma sender_pred e : (1 <= e)%nat -> sender (pred e) = negb (sender e).
Proof. destruct e; [lia|]. intros _. rewrite sender_S. now rewrite negb_involutive. Qed.

Lemma recv_parity log who r p : party_inv log who r p -> recv_epoch p = O \/ sender (recv_epoch p) = negb who.
Proof.
  intros P. pose proof (pi_parity _ _ _ _ P). pose proof (pi_cur _ _ _ _ P). unfold recv_epoch.
  destruct (i_turn p); [now right|]. destruct (Nat.eq_dec (i_cur p) 1); [left; lia|].
  right. rewrite sender_pred by lia. now f_equal.
Qed.

(** Another message in the log does not matter to a party that has not reached its
    epoch. *)
Lemma party_mono log who r p en : party_inv log who r p ->
  en_epoch en <> (if i_turn p then pred (i_cur p) else i_cur p) ->
  (i_turn p = false -> en_epoch en <> (i_cur p - 2)%nat) ->
  (recv_epoch p <= en_epoch en)%nat ->
  party_inv (en :: log) who r p.
Proof.
  intros P H1 H2 H3. destruct P.
  assert (K : forall e, (e <= recv_epoch p)%nat -> known (en :: log) p e = known log p e).
  { intros e He. unfold known. destruct (Nat.eqb_spec e (recv_epoch p)); auto. rewrite cnt_cons.
    destruct (Nat.eqb_spec (en_epoch en) e); [lia|]. reflexivity. }
  constructor; auto.
  - rewrite cnt_cons. destruct (Nat.eqb_spec (en_epoch en) (if i_turn p then pred (i_cur p) else i_cur p)); [contradiction|]. now rewrite N.add_0_l.
  - intros Ht. rewrite cnt_cons. destruct (Nat.eqb_spec (en_epoch en) (i_cur p - 2)).
    + now destruct (H2 Ht).
    + rewrite N.add_0_l. auto.
  - rewrite cnt_cons. destruct (Nat.eqb (en_epoch en) (recv_epoch p)); lia.
  - intros e i Hi. rewrite K; auto. destruct (pi_got0 e i Hi) as (_ & ? & _). lia.
  - intros e i He Hs. rewrite K by lia. auto.
Qed.

Lemma log_cons log who e mn hn msg ct :
  log_inv log -> (1 <= e)%nat -> sender e = who -> length hn = 24%nat -> length mn = 24%nat ->
  ct = hn ++ seal (hk e) hn (header_plain (cnt log e) (cnt log (e - 2)) (base (xs e)) mn) ++ seal (mk e (cnt log e)) mn msg ->
  (forall en, In en log -> ct_nonce (en_ct en) <> hn) ->
  (forall en, In en log -> en_epoch en <> S (S e)) ->
  log_inv (mkEntry who (e, cnt log e, cnt log (e - 2)) msg ct :: log).
Proof.
  intros L He Hs L1 L2 C Hn Hp. set (en := mkEntry who (e, cnt log e, cnt log (e - 2)) msg ct).
  assert (N1 : ct_nonce ct = hn).
  { subst ct. unfold ct_nonce. now apply firstn_app_len. }
  assert (EE : en_epoch en = e) by reflexivity.
  constructor.
  - intros en0 [<-|H0].
    + unfold genuine. cbn [en_label en en_ct en_plain en_from]. exists hn, mn.
      rewrite !cnt_cons, EE, Nat.eqb_refl. destruct (Nat.eqb_spec e (e - 2)); [lia|].
      repeat split; auto; lia.
    + pose proof (li_genuine _ L en0 H0) as G. pose proof (Hp en0 H0) as Hp0. unfold genuine, en_epoch in *.
      destruct (en_label en0) as [[e0 i0] p0]. cbn [fst snd] in *.
      destruct G as (hn0 & mn0 & A1 & A2 & A3 & A4 & A5 & A6 & A7). exists hn0, mn0.
      rewrite !cnt_cons. change (en_epoch en) with e.
      destruct (Nat.eqb_spec e (e0 - 2)); [lia|]. repeat split; auto.
      destruct (Nat.eqb e e0); lia.
  - intros a b [<-|Ha] [<-|Hb]; auto; intros Hc.
    + exfalso. cbn [en en_ct] in Hc. rewrite N1 in Hc. now apply (Hn b Hb).
    + exfalso. cbn [en en_ct] in Hc. rewrite N1 in Hc. now apply (Hn a Ha).
    + now apply (li_nonce _ L).
  - assert (X : forall b, In b log -> en_epoch b = e -> en_index b <> cnt log e).
    { intros b Hb Eb Ib. pose proof (li_genuine _ L b Hb) as G. unfold genuine, en_epoch, en_index in *.
      destruct (en_label b) as [[e0 i0] p0]. cbn [fst snd] in *. subst e0 i0.
      destruct G as (? & ? & _ & _ & _ & _ & _ & G & _). lia. }
    intros a b [<-|Ha] [<-|Hb]; auto; intros Hc Hd.
    + exfalso. rewrite EE in Hc. apply (X b Hb); auto.
    + exfalso. rewrite EE in Hc. apply (X a Ha); auto.
    + now apply (li_label _ L).
Qed.

(** Epochs present in the log have been reached by a party. *)
Lemma epoch_reached w who en : inv w -> In en (w_log w) ->
  (en_epoch en <= i_cur (w_i w who))%nat \/ (en_epoch en <= i_cur (w_i w (negb who)))%nat.
Proof.
  intros I H. destruct (Nat.le_gt_cases (en_epoch en) (i_cur (w_i w who))) as [|H1]; auto.
  destruct (Nat.le_gt_cases (en_epoch en) (i_cur (w_i w (negb who)))) as [|H2]; auto.
  exfalso. pose proof (cnt_who w who I _ H1 H2) as C.
  pose proof (li_genuine _ (iv_log _ I) en H) as G. unfold genuine, en_epoch in *.
  destruct (en_label en) as [[e0 i0] p0]. cbn [fst snd] in *. destruct G as (? & ? & _ & _ & _ & _ & _ & G & _). lia.
Qed.

Lemma set_eq {A} (f : bool -> A) who v : set f who v who = v.
Proof. unfold set. now rewrite Bool.eqb_reflx. Qed.
Lemma set_ne {A} (f : bool -> A) who v : set f who v (negb who) = f (negb who).
Proof. unfold set. now destruct who. Qed.

(** Rebuilding the invariant after a step of [who]. *)
Lemma inv_rebuild w who r' i' log' :
  log_inv log' -> party_inv log' who r' i' -> party_inv log' (negb who) (w_r w (negb who)) (w_i w (negb who)) ->
  two i' (w_i w (negb who)) ->
  (forall e, (i_cur i' < e)%nat -> (i_cur (w_i w (negb who)) < e)%nat -> cnt log' e = 0) -> cnt log' 0 = 0 ->
  inv (mkWorld (set (w_r w) who r') (set (w_i w) who i') log').
Proof.
  intros L P1 P2 T C Z. constructor; cbn [w_r w_i w_log]; auto.
  - intros b. destruct (Bool.bool_dec b who) as [->|Hb].
    + now rewrite !set_eq.
    + replace b with (negb who) by (destruct b, who; auto; contradiction). now rewrite !set_ne.
  - destruct who; cbn [negb] in *; unfold set; cbn [Bool.eqb]; auto. now apply two_sym.
  - destruct who; cbn [negb] in *; unfold set; cbn [Bool.eqb]; auto.
Qed.

Definition advanced (w w' : world) : Prop :=
  (forall who, (i_cur (w_i w' who) <= S (i_cur (w_i w who)))%nat) /\ (length (w_log w') <= S (length (w_log w)))%nat.

Lemma advanced_set w who r' i' log' : (i_cur i' <= S (i_cur (w_i w who)))%nat -> (length log' <= S (length (w_log w)))%nat ->
  advanced w (mkWorld (set (w_r w) who r') (set (w_i w) who i') log').
Proof.
  intros H1 H2. split; auto. intros b. cbn [w_i]. unfold set. destruct (Bool.eqb b who) eqn:X; [|lia].
  apply Bool.eqb_prop in X. now subst.
Qed.

Lemma send_ok w who hn mn msg : inv w -> N.of_nat (length (w_log w)) < 2 ^ 32 - 2 ->
  length hn = 24%nat -> length mn = 24%nat -> (forall en, In en (w_log w) -> ct_nonce (en_ct en) <> hn) ->
  inv (fst (step w (Send who hn mn msg))) /\ snd (step w (Send who hn mn msg)) = mkResult None None false /\
  advanced w (fst (step w (Send who hn mn msg))).
Proof.
  intros I Hlen L1 L2 Hn.
  pose proof (iv_party _ I who) as P. pose proof (iv_party _ I (negb who)) as P2.
  pose proof (two_who w who I) as T. pose proof (cnt_who w who I) as C.
  pose proof (fun en H => epoch_reached w who en I H) as R.
  pose proof (recv_parity _ _ _ _ P) as RP. pose proof (recv_parity _ _ _ _ P2) as RP2.
  pose proof (cnt_le (w_log w)) as CL.
  cbn [RatchetConvModel.step]. destruct (w_i w who) as [c turn sent prev high got] eqn:Ei.
  set (r := w_r w who) in *. set (log := w_log w) in *. set (q := w_i w (negb who)) in *.
  pose proof (pi_cur _ _ _ _ P) as Hc. pose proof (pi_parity _ _ _ _ P) as Hpar.
  pose proof (pi_parity _ _ _ _ P2) as Hpar2. pose proof (pi_cur _ _ _ _ P2) as Hc2.
  unfold two in T. cbn [i_cur i_turn] in *. destruct T as (T1 & T2 & T3).
  unfold ideal_send. cbn [i_cur i_turn i_sent i_prev i_high i_got].
  destruct turn.
  - (* a new epoch *)
    destruct (T1 eq_refl) as [Ht2 Hq]. 
    cbn [fst]. unfold encrypt. rewrite (pi_flag _ _ _ _ P). cbn [i_turn].
    unfold ratchet_step. destruct (pi_turn_true _ _ _ _ P eq_refl) as (Hpub & Hns & Hnr). cbn [i_cur] in *.
    rewrite Hpub. destruct (dh_ok c) as [D _]. rewrite D. cbn [negb].
    cbn [send_chain send_header send_count prev_count send_private root_key recv_header next_send_header
         next_recv_header recv_chain recv_public recv_count ratchet_flag saved my_half their_half kx_private].
    assert (KM : sha256 (root_update_label ++ root_key r ++ dh x25519 base xs (S c)) = km (S c)).
    { rewrite (pi_root _ _ _ _ P). cbn [i_cur]. destruct c as [|c]; [lia|]. reflexivity. }
    rewrite KM. 
    assert (CZ : cnt log (S c) = 0) by (apply C; lia).
    assert (Hprev : sent = cnt log (S c - 2)).
    { pose proof (pi_sent _ _ _ _ P) as X. cbn [i_sent i_turn i_cur] in X. rewrite X. f_equal. lia. }
    assert (HnsS : hmac (km (S c)) next_send_label = hk (S (S (S c)))).
    { destruct c as [|c]; [lia|]. reflexivity. }
    rewrite (pi_scount _ _ _ _ P). cbn [i_sent].
    set (ct := hn ++ _).
    set (en := mkEntry who (S c, 0, sent) msg ct).
    assert (EN : en = mkEntry who (S c, cnt log (S c), cnt log (S c - 2)) msg ct) by (rewrite CZ, <- Hprev; reflexivity).
    assert (LI : log_inv (en :: log)).
    { rewrite EN. apply log_cons with (hn := hn) (mn := mn); auto.
      - apply (iv_log _ I).
      - rewrite sender_S, Hpar. now rewrite negb_involutive.
      - subst ct. rewrite CZ, <- Hprev, Hns. unfold RatchetConvModel.mk. cbn [N.to_nat RatchetConvModel.ck]. reflexivity.
      - intros e0 He0. destruct (R e0 He0); lia. }
    assert (EE : en_epoch en = S c) by reflexivity.
    split; [|split; [reflexivity|apply advanced_set; [rewrite Ei; cbn [i_cur]; lia|cbn [length]; fold log; lia]]].
    apply inv_rebuild.
    + exact LI.
    + destruct P. unfold recv_epoch in *. cbn [i_cur i_turn i_sent i_prev i_high i_got pred] in *.
      assert (K : forall e, sender e = negb who ->
               known (en :: log) (mkI (S c) false 1 sent high got) e = known log (mkI c true sent prev high got) e).
      { intros e He. unfold known, recv_epoch. cbn [i_cur i_turn i_high pred]. destruct (Nat.eqb_spec e c); auto.
        rewrite cnt_cons, EE. destruct (Nat.eqb_spec (S c) e); [|lia]. subst e. exfalso.
        rewrite sender_S, Hpar in He. now destruct who. }
      constructor; unfold recv_epoch; cbn [i_cur i_turn i_sent i_prev i_high i_got pred
         send_chain send_header send_count prev_count send_private root_key recv_header next_send_header
         next_recv_header recv_chain recv_public recv_count ratchet_flag saved]; auto; try lia.
      * rewrite sender_S, Hpar. now rewrite negb_involutive.
      * rewrite cnt_cons, EE, Nat.eqb_refl, CZ. reflexivity.
      * intros _. rewrite cnt_cons, EE. destruct (Nat.eqb_spec (S c) (S c - 2)); [lia|]. now rewrite N.add_0_l.
      * rewrite cnt_cons, EE. destruct (Nat.eqb_spec (S c) c); lia.
      * intros e i Hi. destruct (pi_got0 e i Hi) as (X1 & X2 & X3). rewrite K by auto. auto.
      * intros _. repeat split; auto.
      * intros e i He Hs. rewrite K by auto. auto.
    + fold q. apply party_mono; auto; rewrite EE; rewrite ?Ht2; unfold recv_epoch; rewrite ?Ht2; lia.
    + fold q. unfold two. cbn [i_cur i_turn]. split; [discriminate|]. split; [congruence|]. intros _ _. left. lia.
    + fold q. intros e H1 H2. cbn [i_cur] in H1. rewrite cnt_cons, EE. destruct (Nat.eqb_spec (S c) e); [lia|].
      rewrite N.add_0_l. apply C; lia.
    + rewrite cnt_cons, EE. cbn [Nat.eqb]. apply (iv_zero _ I).
  - (* the same epoch *)
    cbn [fst]. unfold encrypt. rewrite (pi_flag _ _ _ _ P). cbn [i_turn negb].
    destruct (pi_turn_false _ _ _ _ P eq_refl) as (Hsh & Hsc & Hsp & Hpc & Hns & Hnr). cbn [i_cur i_sent i_prev] in *.
    pose proof (pi_sent _ _ _ _ P) as Hsent. cbn [i_sent i_turn i_cur] in Hsent.
    pose proof (pi_prev _ _ _ _ P eq_refl) as Hprev. cbn [i_prev i_cur] in Hprev.
    pose proof (pi_scount _ _ _ _ P) as Hcount. cbn [i_sent] in Hcount.
    rewrite Hsh, Hsc, Hsp, Hpc, Hcount.
    set (ct := hn ++ _).
    set (en := mkEntry who (c, sent, prev) msg ct).
    assert (EN : en = mkEntry who (c, cnt log c, cnt log (c - 2)) msg ct) by (rewrite <- Hsent, <- Hprev; reflexivity).
    assert (LI : log_inv (en :: log)).
    { rewrite EN. apply log_cons with (hn := hn) (mn := mn); auto.
      - apply (iv_log _ I).
      - subst ct. rewrite <- Hsent, <- Hprev. reflexivity.
      - intros e0 He0. destruct (i_turn q) eqn:Tq.
        + destruct (T2 eq_refl). destruct (R e0 He0); lia.
        + destruct (T3 eq_refl eq_refl); destruct (R e0 He0); lia. }
    assert (EE : en_epoch en = c) by reflexivity.
    assert (HS : (sent + 1) mod 2 ^ 32 = sent + 1).
    { apply N.mod_small. specialize (CL c). lia. }
    assert (Hqle : (recv_epoch q <= c)%nat).
    { unfold recv_epoch. destruct (i_turn q) eqn:Tq; [destruct (T2 eq_refl); lia|].
      destruct (T3 eq_refl eq_refl); lia. }
    split; [|split; [reflexivity|apply advanced_set; [rewrite Ei; cbn [i_cur]; lia|cbn [length]; fold log; lia]]].
    apply inv_rebuild.
    + exact LI.
    + destruct P. unfold recv_epoch in *. cbn [i_cur i_turn i_sent i_prev i_high i_got pred] in *.
      assert (K : forall e, sender e = negb who ->
               known (en :: log) (mkI c false (sent + 1) prev high got) e = known log (mkI c false sent prev high got) e).
      { intros e He. unfold known, recv_epoch. cbn [i_cur i_turn i_high pred]. destruct (Nat.eqb_spec e (pred c)); auto.
        rewrite cnt_cons, EE. destruct (Nat.eqb_spec c e); [|lia]. subst e. exfalso.
        rewrite Hpar in He. now destruct who. }
      constructor; unfold recv_epoch; cbn [i_cur i_turn i_sent i_prev i_high i_got pred
         send_chain send_header send_count prev_count send_private root_key recv_header next_send_header
         next_recv_header recv_chain recv_public recv_count ratchet_flag saved]; auto; try lia.
      * rewrite cnt_cons, EE, Nat.eqb_refl. lia.
      * intros _. rewrite cnt_cons, EE. destruct (Nat.eqb_spec c (c - 2)); [lia|]. now rewrite N.add_0_l.
      * rewrite cnt_cons, EE. destruct (Nat.eqb_spec c (pred c)); lia.
      * intros e i Hi. destruct (pi_got0 e i Hi) as (X1 & X2 & X3). rewrite K by auto. auto.
      * intros _. repeat split; auto. rewrite N2Nat.inj_add. change (N.to_nat 1) with 1%nat.
        rewrite Nat.add_1_r. reflexivity.
      * intros e i He Hs. rewrite K by auto. auto.
    + fold q. apply party_mono; auto; rewrite EE; auto.
      * intros X. destruct (i_turn q) eqn:Tq.
        -- assert (Y : sender (pred (i_cur q)) = negb who).
           { rewrite sender_pred by lia. rewrite Hpar2. now destruct who. }
           rewrite <- X, Hpar in Y. now destruct who.
        -- assert (Y : sender (i_cur q) = negb who) by (rewrite Hpar2; reflexivity).
           rewrite <- X, Hpar in Y. now destruct who.
      * intros Tq X. destruct (T3 eq_refl Tq); lia.
    + fold q. unfold two. cbn [i_cur i_turn]. split; [discriminate|]. split; auto.
    + fold q. intros e H1 H2. cbn [i_cur] in H1. rewrite cnt_cons, EE. destruct (Nat.eqb_spec c e); [lia|].
      rewrite N.add_0_l. apply C; lia.
    + rewrite cnt_cons, EE. destruct (Nat.eqb_spec c 0); [lia|]. rewrite N.add_0_l. apply (iv_zero _ I).
Qed.

(** ** Receiving *)

Lemma try_saved_none order sv ct :
  (forall k, mget sv k <> None -> unseal k (ct_nonce ct) (ct_header ct) = None) ->
  try_saved unseal order sv ct = Some (sv, []).
Proof.
  intros H. induction order as [|k order IH]; cbn [try_saved]; auto.
  destruct (mget sv k) eqn:G; auto. rewrite H by congruence. exact IH.
Qed.

Definition without (sv : saved_map) (k : bytes) (n : N) : saved_map :=
  match mget sv k with
  | None => sv
  | Some keys => match mdel keys n with [] => mdel sv k | _ => mset sv k (mdel keys n) end
  end.

Lemma lookup_without sv k n k' n' : lookup sv k n <> None ->
  lookup (without sv k n) k' n' = if eqb k' k && eqb n' n then None else lookup sv k' n'.
Proof.
  intros H. unfold without. destruct (mget sv k) as [keys|] eqn:G.
  - now apply lookup_remove.
  - unfold lookup in H. now rewrite G in H.
Qed.

Lemma mkeys_without sv k n k' : In k' (mkeys (without sv k n)) -> In k' (mkeys sv).
Proof.
  unfold without. destruct (mget sv k) as [keys|] eqn:G; auto.
  destruct (mdel keys n) as [|kv rest].
  - unfold mdel, mkeys. rewrite !in_map_iff. intros (x & Hx & Hf). apply filter_In in Hf. exists x. tauto.
  - rewrite mkeys_mset. unfold mhas. rewrite G. auto.
Qed.

Lemma try_saved_one order sv ct k h : In k order ->
  unseal k (ct_nonce ct) (ct_header ct) = Some h -> length h = 64%nat ->
  (forall k', mget sv k' <> None -> k' <> k -> unseal k' (ct_nonce ct) (ct_header ct) = None) ->
  try_saved unseal order sv ct =
  match lookup sv k (h_num h) with
  | None => Some (sv, [])
  | Some key => match unseal (sk_key key) (h_nonce h) (ct_body ct) with
                | None => None
                | Some m => Some (without sv k (h_num h), m)
                end
  end.
Proof.
  intros Hi U L Ho. destruct (mget sv k) as [keys|] eqn:G.
  - induction order as [|k' order IH]; [contradiction|]. cbn [try_saved].
    destruct (eqb_spec k' k) as [->|Hne].
    + unfold lookup, without. rewrite G, U, L. cbn [N.of_nat]. change (negb _) with false. cbv iota.
      destruct (mget keys (h_num h)); auto.
    + destruct Hi as [->|Hi]; [congruence|]. destruct (mget sv k') eqn:G'.
      * rewrite Ho by congruence. auto.
      * auto.
  - unfold lookup. rewrite G. apply try_saved_none. intros k' Hk'. apply Ho; congruence.
Qed.

(** After a saved key has been used. *)
Lemma inv_taken log who r p e i : (recv_epoch p <= E)%nat -> party_inv log who r p ->
  (1 <= e <= recv_epoch p)%nat -> sender e = negb who -> i < known log p e -> ~ In (e, i) (i_got p) ->
  party_inv log who (set_saved r (without (saved r) (hk e) i))
    (mkI (i_cur p) (i_turn p) (i_sent p) (i_prev p) (i_high p) ((e, i) :: i_got p)).
Proof.
  intros HE P He Hs Hi Hg.
  assert (HL : lookup (saved r) (hk e) i <> None).
  { pose proof (pi_saved _ _ _ _ P e i He Hs) as X. intros Y. rewrite Y in X. cbn [option_map] in X.
    apply mem_false in Hg. rewrite Hg in X. destruct (N.ltb_spec i (known log p e)); [discriminate|lia]. }
  assert (K : forall e', known log (mkI (i_cur p) (i_turn p) (i_sent p) (i_prev p) (i_high p) ((e, i) :: i_got p)) e' = known log p e')
    by reflexivity.
  assert (RE : recv_epoch (mkI (i_cur p) (i_turn p) (i_sent p) (i_prev p) (i_high p) ((e, i) :: i_got p)) = recv_epoch p) by reflexivity.
  destruct P. constructor; rewrite ?RE; cbn [i_cur i_turn i_sent i_prev i_high i_got set_saved
         send_chain send_header send_count prev_count send_private root_key recv_header next_send_header
         next_recv_header recv_chain recv_public recv_count ratchet_flag saved]; auto.
  - intros e' i' [H|H]; [|rewrite K; auto]. apply pair_equal_spec in H. destruct H; subst. now rewrite K.
  - intros k Hk. apply pi_keys0. now apply mkeys_without in Hk.
  - intros e' i' He' Hs'. rewrite lookup_without by auto. rewrite K.
    assert (Q : eqb (hk e') (hk e) = eqb e' e).
    { destruct (eqb_spec e' e) as [->|Hne]; [apply eqb_refl|]. apply eqb_neq. intros X. apply Hne. apply hk_inj; auto; lia. }
    rewrite Q. cbn [mem existsb]. change (eqb (e', i') (e, i)) with (eqb e' e && eqb i' i).
    destruct (eqb e' e && eqb i' i) eqn:B; cbn [orb negb]; [now rewrite andb_false_r|]. apply pi_saved0; auto.
Qed.

(** After a message of the current receiving chain. *)
Lemma inv_current log who r p i now : (recv_epoch p <= E)%nat -> party_inv log who r p ->
  (1 <= recv_epoch p)%nat -> i_high p <= i -> i < cnt log (recv_epoch p) -> N.of_nat (length log) < 2 ^ 32 - 1 ->
  party_inv log who
    (mkRatchet (root_key r) (send_header r) (recv_header r) (next_send_header r) (next_recv_header r)
       (send_chain r) (chain_at hmac (recv_chain r) (S (N.to_nat (i - i_high p)))) (send_private r) (recv_public r)
       (send_count r) ((i + 1) mod 2 ^ 32) (prev_count r) (ratchet_flag r)
       (merge_saved (saved r) (recv_header r) (skipped hmac now (recv_chain r) (i_high p) i))
       (my_half r) (their_half r) (kx_private r))
    (mkI (i_cur p) (i_turn p) (i_sent p) (i_prev p) (i + 1) ((recv_epoch p, i) :: i_got p)).
Proof.
  intros HE P H1 H2 H3 Hl. set (p' := mkI _ _ _ _ _ _).
  assert (RE : recv_epoch p' = recv_epoch p) by reflexivity.
  pose proof (cnt_le log (recv_epoch p)) as HC.
  pose proof (pi_rchain _ _ _ _ P H1) as RC. pose proof (pi_rheader _ _ _ _ P) as RH.
  pose proof (recv_parity _ _ _ _ P) as [X|RP]; [lia|].
  assert (NG : forall i', ~ i' < i_high p -> ~ In (recv_epoch p, i') (i_got p)).
  { intros i' Hn Hg. apply (pi_got _ _ _ _ P) in Hg. destruct Hg as (_ & _ & Hg). unfold known in Hg.
    rewrite Nat.eqb_refl in Hg. lia. }
  destruct P. constructor; rewrite ?RE; cbn [p' i_cur i_turn i_sent i_prev i_high i_got set_saved
         send_chain send_header send_count prev_count send_private root_key recv_header next_send_header
         next_recv_header recv_chain recv_public recv_count ratchet_flag saved]; auto.
  - lia.
  - assert (KM : forall e, known log p e <= known log p' e).
    { intros e. unfold known. rewrite RE. cbn [p' i_high]. destruct (Nat.eqb e (recv_epoch p)); lia. }
    intros e' i' [H|H].
    + apply pair_equal_spec in H. destruct H; subst. repeat split; auto; try lia.
      unfold known. rewrite RE, Nat.eqb_refl. cbn [p' i_high]. lia.
    + destruct (pi_got0 _ _ H) as (A1 & A2 & A3). specialize (KM e'). repeat split; auto; lia.
  - apply N.mod_small. lia.
  - intros _. rewrite RC. rewrite (ck_chain _ (N.to_nat (i_high p))), chain_at_add, <- ck_chain. f_equal. lia.
  - intros k Hk. apply mkeys_merge in Hk. destruct Hk as [Hk|[-> _]]; [auto|]. exists (recv_epoch p). repeat split; auto.
  - intros e' i' He' Hs'. rewrite lookup_merge by apply NoDup_skipped. rewrite RH.
    assert (Q : eqb (hk e') (hk (recv_epoch p)) = eqb e' (recv_epoch p)).
    { destruct (eqb_spec e' (recv_epoch p)) as [->|Hne]; [apply eqb_refl|]. apply eqb_neq. intros X. apply Hne. apply hk_inj; auto; lia. }
    rewrite Q. cbn [mem existsb]. change (eqb (e', i') (recv_epoch p, i)) with (eqb e' (recv_epoch p) && eqb i' i).
    destruct (eqb_spec e' (recv_epoch p)) as [->|Hne].
    + cbn [andb]. rewrite mget_skipped. unfold known. rewrite RE, Nat.eqb_refl. cbn [p' i_high].
      pose proof (pi_saved0 (recv_epoch p) i' He' Hs') as X. unfold known in X. rewrite Nat.eqb_refl in X.
      destruct (N.leb_spec (i_high p) i') as [Hle|Hgt].
      * destruct (N.ltb_spec i' i) as [Hlt|Hge]; cbn [andb option_map sk_key].
        -- rewrite RC, mk_mkey. destruct (N.ltb_spec i' (i + 1)); [|lia].
           destruct (eqb_spec i' i); [lia|]. cbn [orb].
           assert (M : mem (recv_epoch p, i') (i_got p) = false) by (apply mem_false, NG; lia). unfold mem in M. rewrite M.
           cbn [negb andb]. f_equal. f_equal. lia.
        -- rewrite X. destruct (N.ltb_spec i' (i_high p)); [lia|]. cbn [andb].
           destruct (N.ltb_spec i' (i + 1)); [|reflexivity]. replace i' with i by lia.
           rewrite eqb_refl. reflexivity.
      * cbn [andb]. rewrite X. destruct (N.ltb_spec i' (i_high p)); [|lia]. destruct (N.ltb_spec i' (i + 1)); [|lia].
        destruct (eqb_spec i' i); [lia|]. reflexivity.
    + cbn [andb orb]. rewrite pi_saved0 by auto. unfold known. rewrite RE.
      destruct (Nat.eqb_spec e' (recv_epoch p)); [contradiction|]. reflexivity.
Qed.

(** After the first message received of a new chain. *)
Lemma inv_next log who r p i now : (S (i_cur p) <= E)%nat -> party_inv log who r p -> i_turn p = false ->
  i < cnt log (S (i_cur p)) -> N.of_nat (length log) < 2 ^ 32 - 1 -> cnt log 0 = 0 ->
  party_inv log who
    (mkRatchet (hmac (km (S (i_cur p))) root_label) (send_header r) (next_recv_header r) (next_send_header r)
       (hmac (km (S (i_cur p))) next_send_label)
       (send_chain r) (chain_at hmac (hmac (km (S (i_cur p))) chain_label) (S (N.to_nat (i - 0)))) zero32 (base (xs (S (i_cur p))))
       (send_count r) ((i + 1) mod 2 ^ 32) (prev_count r) true
       (merge_saved (merge_saved (saved r) (recv_header r)
           (skipped hmac now (recv_chain r) (i_high p) (cnt log (recv_epoch p)))) (next_recv_header r)
         (skipped hmac now (hmac (km (S (i_cur p))) chain_label) 0 i))
       (my_half r) (their_half r) (kx_private r))
    (mkI (S (i_cur p)) true (i_sent p) (i_prev p) (i + 1) ((S (i_cur p), i) :: i_got p)).
Proof.
  intros HE P Ht H3 Hl Hz. set (p' := mkI _ _ _ _ _ _). set (c := i_cur p) in *.
  assert (RE' : recv_epoch p' = S c) by reflexivity.
  assert (RE : recv_epoch p = pred c) by (unfold recv_epoch; now rewrite Ht).
  pose proof (cnt_le log (S c)) as HC.
  pose proof (pi_rheader _ _ _ _ P) as RH.
  pose proof (pi_cur _ _ _ _ P) as Hc. fold c in Hc.
  destruct (pi_turn_false _ _ _ _ P Ht) as (Hsh & Hsc & Hsp & Hpc & Hns & Hnr). fold c in Hsh, Hsc, Hsp, Hns, Hnr.
  pose proof (pi_parity _ _ _ _ P) as Hpar. rewrite Ht in Hpar. fold c in Hpar.
  assert (NG : forall i', ~ In (S c, i') (i_got p)).
  { intros i' Hg. apply (pi_got _ _ _ _ P) in Hg. rewrite RE in Hg. lia. }
  assert (HG : forall e' i', In (e', i') (i_got p) -> (e' <= pred c)%nat /\ i' < cnt log e').
  { intros e' i' Hg. destruct (pi_got _ _ _ _ P _ _ Hg) as (_ & A & B). rewrite RE in A. split; [lia|].
    unfold known in B. destruct (Nat.eqb_spec e' (recv_epoch p)); [|auto]. subst e'. pose proof (pi_high _ _ _ _ P). lia. }
  destruct P. constructor; rewrite ?RE'; cbn [p' i_cur i_turn i_sent i_prev i_high i_got set_saved
         send_chain send_header send_count prev_count send_private root_key recv_header next_send_header
         next_recv_header recv_chain recv_public recv_count ratchet_flag saved]; auto; try lia; try discriminate.
  - rewrite sender_S. now rewrite Hpar.
  - rewrite Ht in pi_sent0. exact pi_sent0.
  - intros e' i' [H|H].
    + apply pair_equal_spec in H. destruct H; subst. repeat split; auto; try lia.
      * rewrite sender_S. now f_equal.
      * unfold known. rewrite RE', Nat.eqb_refl. cbn [p' i_high]. lia.
    + destruct (pi_got0 _ _ H) as (A1 & A2 & A3). destruct (HG _ _ H). repeat split; auto; try lia.
      unfold known. rewrite RE'. destruct (Nat.eqb_spec e' (S c)); [lia|auto].
  - intros _. change (hmac (km (S c)) chain_label) with (ck (S c) 0). rewrite <- ck_chain. f_equal. lia.
  - intros _. repeat split; auto. destruct c as [|c0]; [lia|]. reflexivity.
  - intros k Hk. apply mkeys_merge in Hk. destruct Hk as [Hk|[-> _]].
    + apply mkeys_merge in Hk. destruct Hk as [Hk|[-> Hne]].
      * destruct (pi_keys0 k Hk) as (e & A & B & C). exists e. rewrite RE in A. repeat split; auto; lia.
      * exists (pred c). rewrite RH, RE. rewrite RE in Hne.
        assert (pred c <> O).
        { intros X. rewrite X, Hz in Hne. apply Hne. apply skipped_nil. lia. }
        repeat split; auto; try lia. rewrite sender_pred by lia. now f_equal.
    + exists (S c). rewrite sender_S. repeat split; auto; try lia. now f_equal.
  - intros e' i' He' Hs'. rewrite lookup_merge by apply NoDup_skipped. rewrite Hnr, RH.
    assert (Q : eqb (hk e') (hk (S c)) = eqb e' (S c)).
    { destruct (eqb_spec e' (S c)) as [->|Hne]; [apply eqb_refl|]. apply eqb_neq. intros X. apply Hne. apply hk_inj; auto; lia. }
    rewrite Q. cbn [mem existsb]. change (eqb (e', i') (S c, i)) with (eqb e' (S c) && eqb i' i).
    unfold known. rewrite RE'. cbn [p' i_high].
    destruct (eqb_spec e' (S c)) as [->|Hne].
    + rewrite Nat.eqb_refl. cbn [andb]. rewrite mget_skipped.
      assert (M : mem (S c, i') (i_got p) = false) by (apply mem_false, NG). unfold mem in M. rewrite M. rewrite orb_false_r.
      destruct (N.leb_spec 0 i'); [|lia]. cbn [andb].
      destruct (N.ltb_spec i' i) as [Hlt|Hge]; cbn [option_map sk_key].
      * change (hmac (km (S c)) chain_label) with (ck (S c) 0). rewrite mk_mkey.
        destruct (N.ltb_spec i' (i + 1)); [|lia]. destruct (eqb_spec i' i); [lia|]. cbn [negb andb]. do 2 f_equal. lia.
      * assert (LN : lookup (merge_saved (saved r) (hk (recv_epoch p))
                      (skipped hmac now (recv_chain r) (i_high p) (cnt log (recv_epoch p)))) (hk (S c)) i' = None).
        { unfold lookup. destruct (mget _ (hk (S c))) eqn:G; auto. exfalso. apply mget_Some_keys in G.
          apply mkeys_merge in G. rewrite RE in *. destruct G as [G|[G Hne]].
          - apply pi_keys0 in G. destruct G as (e & A & _ & B). apply hk_inj in B; try lia.
          - assert (pred c <> O).
            { intros X. rewrite X, Hz in Hne. apply Hne. apply skipped_nil. lia. }
            apply hk_inj in G; lia. }
        rewrite LN. destruct (N.ltb_spec i' (i + 1)); [|reflexivity]. replace i' with i by lia. rewrite eqb_refl. reflexivity.
    + destruct (Nat.eqb_spec e' (S c)); [contradiction|]. cbn [andb orb].
      assert (He2 : (e' <= pred c)%nat).
      { assert (e' <> c); [|lia]. intros ->. rewrite Hpar in Hs'. now destruct who. }
      rewrite lookup_merge by apply NoDup_skipped.
      assert (Q2 : eqb (hk e') (hk (recv_epoch p)) = eqb e' (recv_epoch p)).
      { destruct (eqb_spec e' (recv_epoch p)) as [->|Hne2]; [apply eqb_refl|]. apply eqb_neq. intros X. apply Hne2.
        apply hk_inj; auto; [lia|]. rewrite RE. lia. }
      rewrite Q2. pose proof (pi_saved0 e' i' ltac:(rewrite RE; lia) Hs') as X. unfold known in X.
      destruct (eqb_spec e' (recv_epoch p)) as [->|Hne2].
      * rewrite Nat.eqb_refl in X. rewrite mget_skipped.
        destruct (N.leb_spec (i_high p) i') as [Hle|Hgt].
        -- destruct (N.ltb_spec i' (cnt log (recv_epoch p))) as [Hlt|Hge]; cbn [andb option_map sk_key].
           ++ rewrite pi_rchain0 by lia. rewrite mk_mkey.
              assert (M : mem (recv_epoch p, i') (i_got p) = false).
              { apply mem_false. intros Hg. destruct (pi_got0 _ _ Hg) as (_ & _ & B). unfold known in B. rewrite Nat.eqb_refl in B. lia. }
              unfold mem in M. rewrite M. cbn [negb]. do 2 f_equal. lia.
           ++ rewrite X. destruct (N.ltb_spec i' (i_high p)); [lia|]. reflexivity.
        -- cbn [andb]. rewrite X. destruct (N.ltb_spec i' (i_high p)); [|lia].
           destruct (N.ltb_spec i' (cnt log (recv_epoch p))); [|lia]. reflexivity.
      * rewrite X. destruct (Nat.eqb_spec e' (recv_epoch p)); [contradiction|]. reflexivity.
Qed.

Lemma find_sent_spec log from ct en0 : log_inv log -> In en0 log -> ct_nonce (en_ct en0) = ct_nonce ct ->
  find_sent log from ct = if Bool.eqb (en_from en0) from && eqb (en_ct en0) ct then Some en0 else None.
Proof.
  intros L Hi Hn. unfold find_sent. destruct (find _ log) as [en|] eqn:F.
  - apply find_some in F. destruct F as [Hin F]. apply andb_prop in F as [F1 F2].
    assert (en = en0); [|subst; now rewrite F1, F2]. apply (li_nonce _ L); auto.
    destruct (eqb_spec (en_ct en) ct); [|discriminate]. congruence.
  - pose proof (find_none _ _ F en0 Hi) as X. cbv beta in X. now rewrite X.
Qed.

Lemma find_sent_none log from ct : (forall en, In en log -> en_ct en <> ct) -> find_sent log from ct = None.
Proof.
  intros H. unfold find_sent. destruct (find _ log) as [en|] eqn:F; auto. exfalso.
  apply find_some in F. destruct F as [Hin F]. apply andb_prop in F as [_ F2].
  destruct (eqb_spec (en_ct en) ct); [|discriminate]. now apply (H en).
Qed.

Definition as_outcome (m : option bytes) : outcome := match m with Some x => Got x | None => Fail end.
Definition ideal_step (log : list entry) (who : bool) (p : iparty) (ct : bytes) : iparty * option bytes :=
  match find_sent log (negb who) ct with
  | None => (p, None)
  | Some en => let '(i', ok) := ideal_recv p (en_label en) (en_plain en) in
               (i', if ok then Some (en_plain en) else None)
  end.

Lemma recv_core w who order now ct : inv w -> N.of_nat (length (w_log w)) < 2 ^ 32 - 1 ->
  (i_cur (w_i w who) + 2 <= E)%nat -> (i_cur (w_i w (negb who)) <= E)%nat ->
  (forall l, Permutation l (order l)) -> unforged E (w_log w) ct ->
  exists r' p' m,
    decrypt (order (mkeys (saved (w_r w who)))) now (w_r w who) ct = (r', as_outcome m) /\
    ideal_step (w_log w) who (w_i w who) ct = (p', m) /\
    party_inv (w_log w) who r' p' /\ two p' (w_i w (negb who)) /\
    (i_cur (w_i w who) <= i_cur p' <= S (i_cur (w_i w who)))%nat.
Proof.
  intros I Hlen HE HE2 Hord [U1 U2].
  pose proof (iv_party _ I who) as P. pose proof (two_who w who I) as T. pose proof (iv_log _ I) as L.
  pose proof (fun en H => epoch_reached w who en I H) as R. pose proof (iv_zero _ I) as Z0.
  pose proof (cnt_who w who I) as C.
  specialize (Hord (mkeys (saved (w_r w who)))).
  set (r := w_r w who) in *. set (p := w_i w who) in *. set (q := w_i w (negb who)) in *. set (log := w_log w) in *.
  set (ord := order (mkeys (saved r))) in *. clearbody ord.
  pose proof (pi_cur _ _ _ _ P) as Hc. pose proof (pi_parity _ _ _ _ P) as Hpar.
  pose proof (pi_rheader _ _ _ _ P) as RH. pose proof (recv_parity _ _ _ _ P) as RP.
  assert (NX : exists n, next_recv_header r = hk n /\ (1 <= n <= E)%nat /\ sender n = negb who /\ (recv_epoch p < n)%nat /\
                         (i_turn p = false -> n = S (i_cur p)) /\ (i_turn p = true -> n = S (S (i_cur p)))).
  { destruct (i_turn p) eqn:Ht.
    - destruct (pi_turn_true _ _ _ _ P Ht) as (_ & _ & X). exists (S (S (i_cur p))). unfold recv_epoch. rewrite Ht.
      rewrite !sender_S, Hpar, negb_involutive. repeat split; auto; try lia; discriminate.
    - destruct (pi_turn_false _ _ _ _ P Ht) as (_ & _ & _ & _ & _ & X). exists (S (i_cur p)). unfold recv_epoch. rewrite Ht.
      rewrite !sender_S, Hpar. repeat split; auto; try lia; discriminate. }
  destruct NX as (nx & NX & Hnx & Snx & Rnx & NXf & NXt).
  assert (RE : (recv_epoch p <= i_cur p)%nat) by (unfold recv_epoch; destruct (i_turn p); lia).
  assert (SV : forall k, mget (saved r) k <> None -> exists e, (1 <= e <= recv_epoch p)%nat /\ sender e = negb who /\ k = hk e).
  { intros k Hk. apply (pi_keys _ _ _ _ P). destruct (mget (saved r) k) eqn:G; [|congruence]. now apply mget_Some_keys in G. }
  assert (SAME : forall m : option bytes, m = None -> exists r' p' m', (r, Fail) = (r', as_outcome m') /\ (p, m) = (p', m') /\
     party_inv log who r' p' /\ two p' q /\ (i_cur p <= i_cur p' <= S (i_cur p))%nat).
  { intros m ->. exists r, p, None. split; [reflexivity|]. split; [reflexivity|]. split; [exact P|]. split; [exact T|lia]. }
  unfold RatchetModel.decrypt.
  destruct (N.ltb_spec (N.of_nat (length ct)) 104) as [Hs|Hs].
  { unfold ideal_step. rewrite find_sent_none; [now apply SAME|]. intros en Hen <-.
    destruct (genuine_parts log en (li_genuine _ L en Hen) Hlen) as (?&?&?&?&?&_&_&_&_&_&_&_&_&X&_). lia. }
  destruct (find (fun en => eqb (ct_nonce (en_ct en)) (ct_nonce ct) && eqb (ct_header (en_ct en)) (ct_header ct)) log) as [en0|] eqn:F.
  2: { (* no key of the conversation opens the header *)
    assert (NO : forall e, (1 <= e <= E)%nat -> unseal (hk e) (ct_nonce ct) (ct_header ct) = None).
    { intros e He. destruct (unseal (hk e) _ _) as [h|] eqn:U; auto. exfalso.
      destruct (U1 e h He U) as (en & Hin & _ & X1 & X2). pose proof (find_none _ _ F en Hin) as X. cbv beta in X.
      rewrite X1, X2, !eqb_refl in X. discriminate. }
    assert (NS : ideal_step log who p ct = (p, None)).
    { unfold ideal_step. rewrite find_sent_none; auto. intros en Hin Hct. pose proof (find_none _ _ F en Hin) as X. cbv beta in X.
      rewrite Hct, !eqb_refl in X. discriminate. }
    rewrite try_saved_none.
    2: { intros k Hk. destruct (SV k Hk) as (e & He & _ & ->). apply NO. lia. }
    rewrite set_saved_id, RH, NX, NS. rewrite (NO nx Hnx).
    destruct (Nat.eq_dec (recv_epoch p) 0) as [E0|E0].
    - rewrite E0. change (is_zero_key (hk 0)) with true. cbv iota. now apply SAME.
    - rewrite hk_nonzero by lia. rewrite NO by lia. now apply SAME. }
  apply find_some in F. destruct F as [Hin F]. apply andb_prop in F as [F1 F2].
  destruct (eqb_spec (ct_nonce (en_ct en0)) (ct_nonce ct)) as [Hn|]; [|discriminate]. clear F1.
  destruct (eqb_spec (ct_header (en_ct en0)) (ct_header ct)) as [Hh|]; [|discriminate]. clear F2.
  destruct (genuine_parts log en0 (li_genuine _ L en0 Hin) Hlen)
    as (e0 & i0 & p0 & h & mn & Lb & Lh & Hi0 & Hp0 & Hpub & Hmn & GH & GB & _ & He0 & Hfrom & Hcnt & Hprev).
  assert (EP : en_epoch en0 = e0) by (unfold en_epoch; now rewrite Lb).
  assert (IX : en_index en0 = i0) by (unfold en_index; now rewrite Lb).
  rewrite Hn, Hh in GH.
  assert (He0E : (e0 <= E)%nat). { destruct (R en0 Hin); lia. }
  assert (YES : unseal (hk e0) (ct_nonce ct) (ct_header ct) = Some h) by (rewrite GH; apply box).
  assert (NO : forall e, (1 <= e <= E)%nat -> e <> e0 -> unseal (hk e) (ct_nonce ct) (ct_header ct) = None).
  { intros e He Hne. destruct (unseal (hk e) _ _) as [h'|] eqn:U; auto. exfalso.
    destruct (U1 e h' He U) as (en & Hin' & X0 & X1 & X2). apply Hne.
    assert (en = en0) by (apply (li_nonce _ L); auto; congruence). subst. auto. }
  assert (SVO : forall k', mget (saved r) k' <> None -> k' <> hk e0 -> unseal k' (ct_nonce ct) (ct_header ct) = None).
  { intros k Hk Hne. destruct (SV k Hk) as (e & He & _ & ->). apply NO; [lia|]. intros ->. now apply Hne. }
  set (body := if eqb (en_ct en0) ct then Some (en_plain en0) else None).
  assert (BODY : unseal (mk e0 i0) mn (ct_body ct) = body).
  { subst body. destruct (eqb_spec (en_ct en0) ct) as [X|Hne].
    - rewrite <- X, GB. apply box.
    - destruct (unseal (mk e0 i0) mn (ct_body ct)) as [m|] eqn:U; auto. exfalso.
      destruct (U2 e0 i0 mn m) as (en & Hin' & X0 & X1 & X2); auto.
      assert (en = en0) by (apply (li_label _ L); auto; congruence). subst en.
      apply Hne. apply ct_ext; auto. }
  assert (LH : negb (N.of_nat (length h) =? 64) = false) by (rewrite Lh; reflexivity).
  assert (IS : ideal_step log who p ct =
     if Bool.eqb (en_from en0) (negb who) && eqb (en_ct en0) ct
     then (fst (ideal_recv p (e0, i0, p0) (en_plain en0)),
           if snd (ideal_recv p (e0, i0, p0) (en_plain en0)) then Some (en_plain en0) else None)
     else (p, None)).
  { unfold ideal_step. rewrite (find_sent_spec log (negb who) ct en0 L Hin Hn).
    destruct (_ && _); auto. rewrite Lb. destruct (ideal_recv _ _ _); reflexivity. }
  rewrite Hfrom in IS.
  destruct (Bool.eqb (sender e0) (negb who)) eqn:HS.
  2: { (* its own message *)
    cbn [andb] in IS. rewrite IS.
    assert (NE : forall e, sender e = negb who -> e <> e0) by (intros e X ->; rewrite X, Bool.eqb_reflx in HS; discriminate).
    rewrite try_saved_none.
    2: { intros k Hk. destruct (SV k Hk) as (e & He & Hse & ->). apply NO; [lia|auto]. }
    rewrite set_saved_id, RH, NX. rewrite (NO nx Hnx) by auto.
    destruct RP as [E0|RP].
    - rewrite E0. change (is_zero_key (hk 0)) with true. cbv iota. now apply SAME.
    - destruct (Nat.eq_dec (recv_epoch p) 0) as [E0|E0].
      + rewrite E0. change (is_zero_key (hk 0)) with true. cbv iota. now apply SAME.
      + rewrite hk_nonzero by lia. rewrite NO by (auto; lia). now apply SAME. }
  apply Bool.eqb_prop in HS. cbn [andb] in IS.
  assert (BN : body = None -> ideal_step log who p ct = (p, None)).
  { intros X. rewrite IS. subst body. destruct (eqb (en_ct en0) ct); [discriminate|reflexivity]. }
  assert (BS : forall m, body = Some m -> m = en_plain en0 /\ ideal_step log who p ct =
      (fst (ideal_recv p (e0, i0, p0) m), if snd (ideal_recv p (e0, i0, p0) m) then Some m else None)).
  { intros m X. rewrite IS. subst body. destruct (eqb (en_ct en0) ct); [|discriminate]. injection X as <-. auto. }
  clear IS. clearbody body.
  destruct (Nat.le_gt_cases e0 (recv_epoch p)) as [Hle|Hgt].
  - (* an epoch already known *)
    assert (TS : try_saved unseal ord (saved r) ct =
       match option_map sk_key (lookup (saved r) (hk e0) i0) with
       | None => Some (saved r, [])
       | Some key => match unseal key mn (ct_body ct) with
                     | None => None
                     | Some m => Some (without (saved r) (hk e0) i0, m)
                     end
       end).
    { destruct (mget (saved r) (hk e0)) as [keys|] eqn:G.
      - rewrite (try_saved_one ord (saved r) ct (hk e0) h); auto.
        + rewrite Hi0, Hmn. destruct (lookup (saved r) (hk e0) i0); reflexivity.
        + apply (Permutation_in _ Hord). now apply mget_Some_keys in G.
      - rewrite try_saved_none; [unfold lookup; now rewrite G|]. intros k Hk. apply SVO; auto. congruence. }
    rewrite (pi_saved _ _ _ _ P e0 i0 (conj He0 Hle) HS) in TS.
    assert (KN : known log p e0 = if Nat.eqb e0 (recv_epoch p) then i_high p else cnt log e0) by reflexivity.
    destruct (mem (e0, i0) (i_got p)) eqn:M.
    + (* taken before *)
      assert (NS : ideal_step log who p ct = (p, None)).
      { destruct body as [m|]; [|auto]. destruct (BS m eq_refl) as [_ X]. rewrite X. unfold ideal_recv. rewrite M. reflexivity. }
      rewrite andb_false_r in TS. rewrite TS, set_saved_id, NS, RH. rewrite hk_nonzero by lia.
      destruct (Nat.eq_dec e0 (recv_epoch p)) as [->|Hne].
      * rewrite YES. unfold decrypt_current. rewrite LH, Hi0.
        apply mem_In in M. apply (pi_got _ _ _ _ P) in M. destruct M as (_ & _ & M). rewrite KN, Nat.eqb_refl in M.
        rewrite (pi_rcount _ _ _ _ P). rewrite save_keys_past by auto. now apply SAME.
      * rewrite NO by lia. rewrite NX. rewrite (NO nx Hnx) by lia. now apply SAME.
    + rewrite andb_true_r in TS.
      destruct (N.ltb_spec i0 (known log p e0)) as [Hk|Hk].
      * (* a saved key *)
        rewrite BODY in TS. rewrite TS. clear TS.
        assert (IR : forall m, ideal_recv p (e0, i0, p0) m =
                  (mkI (i_cur p) (i_turn p) (i_sent p) (i_prev p) (i_high p) ((e0, i0) :: i_got p),
                   match m with [] => false | _ => true end)).
        { intros m. unfold ideal_recv. rewrite M.
          destruct (Nat.ltb_spec e0 (recv_epoch p)); cbn [orb]; auto.
          rewrite KN in Hk. destruct (Nat.eqb_spec e0 (recv_epoch p)); [|lia]. cbn [andb].
          destruct (N.ltb_spec i0 (i_high p)); [|lia]. reflexivity. }
        pose proof (inv_taken log who r p e0 i0 ltac:(lia) P (conj He0 Hle) HS Hk (proj1 (mem_false _ _) M)) as PT.
        destruct body as [m|].
        -- destruct (BS m eq_refl) as [_ X]. rewrite X, IR. cbn [fst snd]. destruct m as [|b m].
           ++ cbn [set_saved recv_header next_recv_header]. rewrite RH. rewrite hk_nonzero by lia.
              exists (set_saved r (without (saved r) (hk e0) i0)), (mkI (i_cur p) (i_turn p) (i_sent p) (i_prev p) (i_high p) ((e0, i0) :: i_got p)), None.
              split; [|split; [reflexivity|split; [exact PT|split; [exact T|cbn [i_cur]; lia]]]].
              destruct (Nat.eq_dec e0 (recv_epoch p)) as [He|Hne].
              ** rewrite <- He, YES. unfold decrypt_current. rewrite LH, Hi0. rewrite KN, He, Nat.eqb_refl in Hk.
                 cbn [recv_chain recv_count set_saved]. rewrite (pi_rcount _ _ _ _ P). rewrite save_keys_past by auto. reflexivity.
              ** rewrite NO by lia. rewrite NX. rewrite (NO nx Hnx) by lia. reflexivity.
           ++ eexists _, _, (Some (b :: m)). split; [reflexivity|]. split; [reflexivity|]. split; [exact PT|split; [exact T|cbn [i_cur]; lia]].
        -- rewrite BN by auto. now apply SAME.
      * (* the front of the current chain *)
        rewrite TS, set_saved_id. assert (Heq : e0 = recv_epoch p).
        { rewrite KN in Hk. destruct (Nat.eqb_spec e0 (recv_epoch p)); auto. lia. }
        rewrite KN, Heq, Nat.eqb_refl in Hk. rewrite RH, <- Heq. rewrite hk_nonzero by lia. rewrite YES.
        unfold decrypt_current. rewrite LH, Hi0, (pi_rcount _ _ _ _ P).
        assert (IR : forall m, ideal_recv p (e0, i0, p0) m =
                 if 80 <? i0 - i_high p then (p, false)
                 else (mkI (i_cur p) (i_turn p) (i_sent p) (i_prev p) (i0 + 1) ((e0, i0) :: i_got p), true)).
        { intros m. unfold ideal_recv. rewrite M. rewrite Heq, Nat.ltb_irrefl, Nat.eqb_refl. cbn [orb andb].
          destruct (N.ltb_spec i0 (i_high p)); [lia|]. reflexivity. }
        destruct (N.ltb_spec 80 (i0 - i_high p)) as [Hfar|Hnear].
        -- rewrite save_keys_far by lia. destruct body as [m|].
           ++ destruct (BS m eq_refl) as [_ X]. rewrite X, IR. now apply SAME.
           ++ rewrite BN by auto. now apply SAME.
        -- pose proof (cnt_le log e0). rewrite save_keys_ok by lia.
           assert (MK : mkey_at hmac (recv_chain r) (N.to_nat (i0 - i_high p)) = mk e0 i0).
           { rewrite (pi_rchain _ _ _ _ P) by lia. rewrite mk_mkey, <- Heq. f_equal. lia. }
           rewrite MK, Hmn, BODY. destruct body as [m|].
           ++ destruct (BS m eq_refl) as [_ X]. rewrite X, IR. cbn [fst snd].
              eexists _, _, (Some m). split; [reflexivity|]. split; [reflexivity|]. split; [|split; [exact T|cbn [i_cur]; lia]].
              rewrite Heq. apply inv_current; auto; try lia. now rewrite <- Heq.
           ++ rewrite BN by auto. now apply SAME.
  - (* a new epoch *)
    assert (Ht : i_turn p = false).
    { destruct (i_turn p) eqn:Ht; auto. exfalso. destruct T as (T1 & _). destruct (T1 Ht) as [_ X].
      unfold recv_epoch in Hgt. rewrite Ht in Hgt. destruct (R en0 Hin); lia. }
    assert (Heq : e0 = S (i_cur p)).
    { assert (e0 <> i_cur p) by (intros ->; rewrite Ht in Hpar; rewrite Hpar in HS; now destruct who).
      unfold recv_epoch in Hgt. rewrite Ht in Hgt. destruct T as (_ & T2 & T3). destruct (i_turn q) eqn:Tq.
      - destruct (T2 eq_refl). destruct (R en0 Hin); lia.
      - destruct (T3 Ht eq_refl); destruct (R en0 Hin); lia. }
    assert (HQ : i_turn q = false /\ i_cur q = S (i_cur p)).
    { destruct T as (_ & T2 & T3). destruct (i_turn q) eqn:Tq.
      - destruct (T2 eq_refl). exfalso. destruct (R en0 Hin); lia.
      - split; auto. destruct (T3 Ht eq_refl); auto. exfalso. destruct (R en0 Hin); lia. }
    rewrite try_saved_none.
    2: { intros k Hk. destruct (SV k Hk) as (e & He & Hse & ->). apply NO; lia. }
    rewrite set_saved_id, RH.
    replace (if is_zero_key (hk (recv_epoch p)) then None else unseal (hk (recv_epoch p)) (ct_nonce ct) (ct_header ct)) with (@None bytes).
    2: { destruct (Nat.eq_dec (recv_epoch p) 0) as [E0|E0].
         - rewrite E0. reflexivity.
         - rewrite hk_nonzero by lia. now rewrite NO by lia. }
    assert (YES2 : unseal (hk (S (i_cur p))) (ct_nonce ct) (ct_header ct) = Some h) by (rewrite <- Heq; exact YES).
    rewrite NX, (NXf Ht), YES2. unfold decrypt_next. rewrite LH, (pi_flag _ _ _ _ P), Ht, Hp0, (pi_rcount _ _ _ _ P), Hi0, Hpub.
    destruct (pi_turn_false _ _ _ _ P Ht) as (Hsh & Hsc & Hsp & Hpc & Hns & Hnr).
    assert (RP' : recv_epoch p = (e0 - 2)%nat) by (unfold recv_epoch; rewrite Ht; lia).
    rewrite <- RP' in Hprev. pose proof (pi_high _ _ _ _ P) as Hhigh. rewrite <- Hprev in Hhigh.
    assert (M : mem (e0, i0) (i_got p) = false).
    { apply mem_false. intros X. apply (pi_got _ _ _ _ P) in X. lia. }
    assert (IR : forall m, ideal_recv p (e0, i0, p0) m =
                 if (80 <? p0 - i_high p) || (80 <? i0) then (p, false)
                 else (mkI e0 true (i_sent p) (i_prev p) (i0 + 1) ((e0, i0) :: i_got p), true)).
    { intros m. unfold ideal_recv. rewrite M. destruct (Nat.ltb_spec e0 (recv_epoch p)); [lia|].
      destruct (Nat.eqb_spec e0 (recv_epoch p)); [lia|]. reflexivity. }
    pose proof (cnt_le log e0). pose proof (cnt_le log (recv_epoch p)).
    destruct (N.ltb_spec 80 (p0 - i_high p)) as [Hfar|Hnear].
    { rewrite save_keys_far by lia. destruct body as [m|].
      - destruct (BS m eq_refl) as [_ X]. rewrite X, IR. now apply SAME.
      - rewrite BN by auto. now apply SAME. }
    rewrite save_keys_ok by lia. rewrite Hsp. replace (base (xs e0)) with (base (xs (S (i_cur p)))) by (now rewrite Heq). destruct (dh_ok (i_cur p)) as [_ D]. rewrite D. cbv zeta.
    assert (KM : sha256 (root_update_label ++ root_key r ++ dh x25519 base xs (S (i_cur p))) = km (S (i_cur p))).
    { rewrite (pi_root _ _ _ _ P). destruct (i_cur p) as [|c0]; [lia|]. reflexivity. }
    rewrite KM. destruct (N.ltb_spec 80 i0) as [Hfar|Hnear2].
    { rewrite save_keys_far by lia. destruct body as [m|].
      - destruct (BS m eq_refl) as [_ X]. rewrite X, IR. rewrite orb_true_r. now apply SAME.
      - rewrite BN by auto. now apply SAME. }
    rewrite save_keys_ok by lia.
    assert (MK : mkey_at hmac (hmac (km (S (i_cur p))) chain_label) (N.to_nat (i0 - 0)) = mk e0 i0).
    { change (hmac (km (S (i_cur p))) chain_label) with (ck (S (i_cur p)) 0). rewrite mk_mkey, <- Heq. f_equal. lia. }
    rewrite MK, Hmn, BODY. destruct body as [m|].
    + destruct (BS m eq_refl) as [_ X]. rewrite X, IR. cbn [orb fst snd].
      eexists _, _, (Some m). split; [reflexivity|]. split; [reflexivity|]. split.
      * rewrite Heq, Hprev. apply inv_next; auto; try lia. now rewrite <- Heq.
      * split; [|cbn [i_cur]; lia]. unfold two. cbn [i_turn i_cur]. destruct HQ. split; [intros _; split; congruence|].
        split; [congruence|discriminate].
    + rewrite BN by auto. now apply SAME.
Qed.

Lemma recv_ok w who order now ct : inv w -> N.of_nat (length (w_log w)) < 2 ^ 32 - 1 ->
  (i_cur (w_i w who) + 2 <= E)%nat -> (i_cur (w_i w (negb who)) <= E)%nat ->
  (forall l, Permutation l (order l)) -> unforged E (w_log w) ct ->
  inv (fst (step w (Recv who order now ct))) /\
  real_result (snd (step w (Recv who order now ct))) = ideal_result (snd (step w (Recv who order now ct))) /\
  hangs (snd (step w (Recv who order now ct))) = false /\
  advanced w (fst (step w (Recv who order now ct))).
Proof.
  intros I Hl H1 H2 Ho U. destruct (recv_core w who order now ct I Hl H1 H2 Ho U) as (r' & p' & m & D & S & P & T & C).
  cbn [RatchetConvModel.step]. rewrite D. unfold ideal_step in S. rewrite S. cbn [fst snd real_result ideal_result hangs].
  split; [|split; [|split]].
  - apply inv_rebuild; auto.
    + apply (iv_log _ I).
    + apply (iv_party _ I).
    + intros e X Y. apply (cnt_who w who I); lia.
    + apply (iv_zero _ I).
  - now destruct m.
  - now destruct m.
  - apply advanced_set; lia.
Qed.

Definition good (r : result) : Prop := real_result r = ideal_result r /\ hangs r = false.

Notation run := (run hmac sha256 x25519 base seal unseal xs).
Notation fair := (fair hmac sha256 x25519 base seal unseal xs sk).

Lemma step_ok w ev evs : inv w -> fair E w (ev :: evs) -> N.of_nat (length (w_log w)) < 2 ^ 32 - 2 ->
  (forall who, (i_cur (w_i w who) + 2 <= E)%nat) ->
  inv (fst (step w ev)) /\ good (snd (step w ev)) /\ advanced w (fst (step w ev)).
Proof.
  intros I [F _] Hl HE. destruct ev as [who hn mn msg|who order now ct].
  - destruct F as (L1 & L2 & F). destruct (send_ok w who hn mn msg I Hl L1 L2 F) as (A & B & C).
    rewrite B. split; [exact A|]. split; [split; reflexivity|exact C].
  - destruct F as [F1 F2]. pose proof (HE who) as H1. pose proof (HE (negb who)) as H2.
    assert (H3 : (i_cur (w_i w (negb who)) <= E)%nat) by lia.
    assert (H4 : N.of_nat (length (w_log w)) < 2 ^ 32 - 1) by lia.
    destruct (recv_ok w who order now ct I H4 H1 H3 F1 F2) as (A & B & C & D).
    split; [exact A|]. split; [split; [exact B|exact C]|exact D].
Qed.

Lemma run_ok evs : forall w, inv w -> fair E w evs -> N.of_nat (length (w_log w) + length evs) < 2 ^ 32 - 1 ->
  (forall who, (i_cur (w_i w who) + length evs + 1 <= E)%nat) ->
  inv (fst (run w evs)) /\ Forall good (snd (run w evs)) /\
  (forall who, (i_cur (w_i (fst (run w evs)) who) <= i_cur (w_i w who) + length evs)%nat) /\
  (length (w_log (fst (run w evs))) <= length (w_log w) + length evs)%nat.
Proof.
  induction evs as [|ev evs IH]; intros w I F Hl HE.
  - cbn [RatchetConvModel.run fst snd length]. split; [exact I|]. split; [constructor|]. split; [intros|]; lia.
  - assert (HE' : forall who, (i_cur (w_i w who) + 2 <= E)%nat).
    { intros who. specialize (HE who). cbn [length] in HE. lia. }
    assert (Hl0 : N.of_nat (length (w_log w)) < 2 ^ 32 - 2) by (cbn [length] in Hl; lia).
    destruct (step_ok w ev evs I F Hl0 HE') as (A & B & [C1 C2]).
    cbn [RatchetConvModel.run]. destruct (step w ev) as [w1 r] eqn:S. cbn [fst snd] in *.
    destruct F as [_ F]. rewrite S in F. cbn [fst] in F.
    assert (Hl1 : N.of_nat (length (w_log w1) + length evs) < 2 ^ 32 - 1) by (cbn [length] in Hl; lia).
    assert (HE1 : forall who, (i_cur (w_i w1 who) + length evs + 1 <= E)%nat).
    { intros who. specialize (HE who). specialize (C1 who). cbn [length] in HE. lia. }
    destruct (IH w1 A F Hl1 HE1) as (I1 & I2 & I3 & I4).
    destruct (run w1 evs) as [w2 rs]. cbn [fst snd length] in *. split; [exact I1|]. split; [constructor; auto|]. split.
    + intros who. specialize (C1 who). specialize (I3 who). lia.
    + lia.
Qed.

Lemma run_app w a b : fst (run w (a ++ b)) = fst (run (fst (run w a)) b).
Proof using.
  clear box seal_length base_length dh_ok hk_inj hk_nonzero. revert w. induction a as [|ev a IH]; intros w; [reflexivity|].
  cbn [app RatchetConvModel.run]. destruct (step w ev) as [w1 r]. specialize (IH w1).
  destruct (run w1 (a ++ b)), (run w1 a). cbn [fst] in *. exact IH.
Qed.

Lemma run_one w ev : fst (run w [ev]) = fst (step w ev).
Proof using. clear box seal_length base_length dh_ok hk_inj hk_nonzero. cbn [RatchetConvModel.run]. now destruct (step w ev). Qed.

Lemma fair_app w a b : fair E w (a ++ b) -> fair E w a /\ fair E (fst (run w a)) b.
Proof using.
  clear box seal_length base_length dh_ok hk_inj hk_nonzero. revert w. induction a as [|ev a IH]; intros w F; [split; [exact I|exact F]|].
  cbn [app RatchetConvModel.fair RatchetConvModel.run] in *. destruct F as [F1 F2].
  destruct (step w ev) as [w1 r]. cbn [fst] in *. apply IH in F2. destruct F2 as [F2 F3].
  destruct (run w1 a). cbn [fst] in *. auto.
Qed.

(** ** What a run keeps *)

Lemma ideal_got p l m x : In x (i_got p) -> In x (i_got (fst (ideal_recv p l m))).
Proof using.
  clear. intros H. unfold ideal_recv. destruct l as [[e i] prev].
  repeat match goal with |- context [if ?b then _ else _] => destruct b end; cbn [fst i_got]; auto using in_cons.
Qed.

Lemma ideal_took p l m : snd (ideal_recv p l m) = true -> In (fst l) (i_got (fst (ideal_recv p l m))).
Proof using.
  clear. unfold ideal_recv. destruct l as [[e i] prev].
  repeat match goal with |- context [if ?b then _ else _] => destruct b end; cbn [fst snd i_got]; try discriminate; intros _; left; auto.
Qed.

Lemma ideal_again p l m : In (fst l) (i_got p) -> ideal_recv p l m = (p, false).
Proof using.
  clear. unfold ideal_recv. destruct l as [[e i] prev]. cbn [fst]. intros H. apply mem_In in H. now rewrite H.
Qed.

(** Entries of the log stay, and so do the marks of messages taken. *)
Lemma step_keeps w ev :
  (forall en, In en (w_log w) -> In en (w_log (fst (step w ev)))) /\
  (forall who x, In x (i_got (w_i w who)) -> In x (i_got (w_i (fst (step w ev)) who))).
Proof using.
  clear box seal_length base_length dh_ok hk_inj hk_nonzero.
  destruct ev as [who hn mn msg|who order now ct]; cbn [RatchetConvModel.step].
  - unfold ideal_send. destruct (i_turn (w_i w who));
      destruct (encrypt _ _ _ _ _ _ _ _ _ _) as [r' [ct|]]; cbn [fst w_log w_i]; split; auto; intros en H; auto using in_cons;
      intros x; unfold set; destruct (Bool.eqb_spec en who); subst; cbn [i_got]; auto.
  - destruct (decrypt _ _ _ _) as [r' out].
    destruct (find_sent (w_log w) (negb who) ct) as [en|].
    + destruct (ideal_recv (w_i w who) (en_label en) (en_plain en)) as [i' ok] eqn:D. cbn [fst w_log w_i]. split; auto.
      intros who' x Hx. unfold set. destruct (Bool.eqb who' who) eqn:Q; auto. apply Bool.eqb_prop in Q. subst.
      change i' with (fst (i', ok)). rewrite <- D. now apply ideal_got.
    + cbn [fst w_log w_i]. split; auto.
      intros who' x Hx. unfold set. destruct (Bool.eqb who' who) eqn:Q; auto. apply Bool.eqb_prop in Q. now subst.
Qed.

Lemma run_keeps evs : forall w,
  (forall en, In en (w_log w) -> In en (w_log (fst (run w evs)))) /\
  (forall who x, In x (i_got (w_i w who)) -> In x (i_got (w_i (fst (run w evs)) who))).
Proof using.
  clear box seal_length base_length dh_ok hk_inj hk_nonzero.
  induction evs as [|ev evs IH]; intros w; [split; auto|].
  cbn [RatchetConvModel.run]. destruct (step_keeps w ev) as [A B]. destruct (step w ev) as [w1 r]. cbn [fst] in *.
  specialize (IH w1). destruct (run w1 evs) as [w2 rs]. cbn [fst] in *. destruct IH as [C D]. split; auto.
Qed.

Definition answer (w : world) (ev : event) : option bytes := real_result (snd (step w ev)).

(** A message accepted once is not accepted again. *)
Lemma no_replay w evs1 evs2 who o1 t1 o2 t2 ct m : inv w ->
  fair E w (evs1 ++ [Recv who o1 t1 ct] ++ evs2 ++ [Recv who o2 t2 ct]) ->
  N.of_nat (length (w_log w) + length (evs1 ++ [Recv who o1 t1 ct] ++ evs2 ++ [Recv who o2 t2 ct])) < 2 ^ 32 - 1 ->
  (forall b, (i_cur (w_i w b) + length (evs1 ++ [Recv who o1 t1 ct] ++ evs2 ++ [Recv who o2 t2 ct]) + 1 <= E)%nat) ->
  answer (fst (run w evs1)) (Recv who o1 t1 ct) = Some m ->
  answer (fst (run w (evs1 ++ [Recv who o1 t1 ct] ++ evs2))) (Recv who o2 t2 ct) = None.
Proof.
  intros I F Hl HE A1. rewrite !app_length in Hl. cbn [length] in Hl.
  assert (HE' : forall b, (i_cur (w_i w b) + (length evs1 + (1 + (length evs2 + 1))) + 1 <= E)%nat).
  { intros b. specialize (HE b). rewrite !app_length in HE. exact HE. } clear HE.
  apply fair_app in F. destruct F as [F1 F]. apply fair_app in F. destruct F as [F2 F]. apply fair_app in F. destruct F as [F3 F4].
  set (w1 := fst (run w evs1)) in *. rewrite !run_app. fold w1.
  rewrite run_one in *. set (w2 := fst (step w1 (Recv who o1 t1 ct))) in *. set (w3 := fst (run w2 evs2)) in *.
  destruct (run_ok evs1 w I F1) as (I1 & _ & C1 & L1).
  { lia. } { intros b. specialize (HE' b). lia. } fold w1 in I1, C1, L1.
  destruct (step_ok w1 _ [] I1 F2) as (I2 & G2 & [C2 L2]).
  { lia. } { intros b. specialize (HE' b). specialize (C1 b). lia. } fold w2 in I2, C2, L2.
  destruct (run_ok evs2 w2 I2 F3) as (I3 & _ & C3 & L3).
  { lia. } { intros b. specialize (HE' b). specialize (C1 b). specialize (C2 b). lia. } fold w3 in I3, C3, L3.
  destruct (step_ok w3 _ [] I3 F4) as (_ & G4 & _).
  { lia. } { intros b. specialize (HE' b). specialize (C1 b). specialize (C2 b). specialize (C3 b). lia. }
  unfold answer in *. destruct G2 as [G2 _]. destruct G4 as [G4 _]. rewrite G4. rewrite G2 in A1.
  pose proof (iv_log _ I3) as LI.
  assert (X : exists en, find_sent (w_log w1) (negb who) ct = Some en /\ In (fst (en_label en)) (i_got (w_i w2 who))).
  { subst w2. cbn [RatchetConvModel.step] in *. destruct (decrypt _ _ _ _) as [r' out].
    destruct (find_sent (w_log w1) (negb who) ct) as [en|] eqn:FS; [|discriminate]. exists en. split; auto.
    pose proof (ideal_took (w_i w1 who) (en_label en) (en_plain en)) as TK.
    destruct (ideal_recv (w_i w1 who) (en_label en) (en_plain en)) as [i' ok]. cbn [fst snd ideal_result w_i] in *.
    destruct ok; [|discriminate]. rewrite set_eq. auto. }
  destruct X as (en & FS & G).
  apply (proj2 (run_keeps evs2 w2)) in G. fold w3 in G.
  assert (Hin : In en (w_log w3)).
  { apply (proj1 (run_keeps evs2 w2)). apply (proj1 (step_keeps w1 (Recv who o1 t1 ct))). unfold find_sent in FS. now apply find_some in FS. }
  unfold find_sent in FS. apply find_some in FS. destruct FS as [_ FS]. apply andb_prop in FS as [FS1 FS2].
  destruct (eqb_spec (en_ct en) ct) as [Hct|]; [|discriminate].
  assert (FS3 : find_sent (w_log w3) (negb who) ct = Some en).
  { rewrite (find_sent_spec _ _ _ en LI Hin) by congruence. now rewrite FS1, Hct, eqb_refl. }
  cbn [RatchetConvModel.step]. destruct (decrypt _ _ _ _) as [r' out]. rewrite FS3. rewrite (ideal_again _ _ _ G). reflexivity.
Qed.

(** A message marked as taken and not empty has been returned. *)
Lemma got_returned evs who en : forall w, inv w -> fair E w evs -> N.of_nat (length (w_log w) + length evs) < 2 ^ 32 - 1 ->
  (forall b, (i_cur (w_i w b) + length evs + 1 <= E)%nat) ->
  In en (w_log (fst (run w evs))) -> en_plain en <> [] -> In (fst (en_label en)) (i_got (w_i (fst (run w evs)) who)) ->
  In (fst (en_label en)) (i_got (w_i w who)) \/
  exists evs1 evs2 o t, evs = evs1 ++ Recv who o t (en_ct en) :: evs2 /\
    answer (fst (run w evs1)) (Recv who o t (en_ct en)) = Some (en_plain en).
Proof.
  induction evs as [|ev evs IH]; intros w I F Hl HE Hen Hp Hg; [left; auto|].
  assert (FF := F). destruct F as [_ F2].
  destruct (step_ok w ev evs I FF) as (I1 & [G1 _] & [C1 L1]).
  { cbn [length] in Hl. lia. } { intros b. specialize (HE b). cbn [length] in HE. lia. }
  assert (Hl' : N.of_nat (length (w_log (fst (step w ev))) + length evs) < 2 ^ 32 - 1) by (cbn [length] in Hl; lia).
  assert (HE' : forall b, (i_cur (w_i (fst (step w ev)) b) + length evs + 1 <= E)%nat).
  { intros b. specialize (HE b). specialize (C1 b). cbn [length] in HE. lia. }
  assert (RE : fst (run w (ev :: evs)) = fst (run (fst (step w ev)) evs)).
  { cbn [RatchetConvModel.run]. destruct (step w ev) as [w1 r]. cbn [fst]. now destruct (run w1 evs). }
  rewrite RE in *. destruct (IH _ I1 F2 Hl' HE' Hen Hp Hg) as [H|(evs1 & evs2 & o & t & -> & A)].
  - destruct (mem (fst (en_label en)) (i_got (w_i w who))) eqn:M; [left; now apply mem_In|].
    right. apply mem_false in M.
    destruct (run_ok evs _ I1 F2 Hl' HE') as (IW & _). pose proof (iv_log _ IW) as LI.
    destruct ev as [who' hn mn msg|who' order now ct].
    + exfalso. apply M. revert H. cbn [RatchetConvModel.step]. unfold ideal_send. destruct (i_turn (w_i w who'));
      destruct (encrypt _ _ _ _ _ _ _ _ _ _) as [r' [ct|]]; cbn [fst w_i]; auto;
      unfold set; destruct (Bool.eqb_spec who who'); subst; cbn [i_got]; auto.
    + assert (Y : who' = who /\ exists en', In en' (w_log w) /\ en_ct en' = ct /\ fst (en_label en') = fst (en_label en) /\
                 (en_plain en' <> [] -> ideal_result (snd (step w (Recv who' order now ct))) = Some (en_plain en'))).
      { revert H. cbn [RatchetConvModel.step]. destruct (decrypt _ _ _ _) as [r' out].
        destruct (find_sent (w_log w) (negb who') ct) as [en'|] eqn:FS.
        - pose proof (find_some _ _ FS) as [FS1 FS2]. apply andb_prop in FS2 as [_ FS2].
          destruct (eqb_spec (en_ct en') ct) as [Hct|]; [|discriminate].
          destruct (ideal_recv (w_i w who') (en_label en') (en_plain en')) as [i' ok] eqn:D. cbn [fst snd w_i ideal_result].
          unfold set. destruct (Bool.eqb who who') eqn:Q; [|tauto]. apply Bool.eqb_prop in Q. subst who'.
          intros H. split; auto. exists en'. split; auto. split; auto.
          revert D. unfold ideal_recv. destruct (en_label en') as [[e i] prev] eqn:LB. cbn [fst].
          assert (X : ideal_recv (w_i w who) (e, i, prev) (en_plain en') = (i', ok) -> In (fst (en_label en)) (i_got i') ->
                    (e, i) = fst (en_label en) /\ (en_plain en' <> [] -> ok = true)).
          { clear - M. intros D H. unfold ideal_recv in D. destruct (mem (e, i) (i_got (w_i w who))).
            { injection D as <- <-. contradiction. }
            destruct (_ || _).
            { apply pair_equal_spec in D. destruct D as [<- <-]. cbn [i_got] in H. destruct H; [|contradiction]. split; auto. now destruct (en_plain en'). }
            destruct (Nat.eqb _ _); [destruct (80 <? _)|destruct (_ || _)]; injection D as <- <-; try contradiction;
              cbn [i_got] in H; (destruct H; [|contradiction]); auto. }
          intros D. destruct (X D H) as [X1 X2]. split; [auto|]. intros Hne. now rewrite X2.
        - cbn [fst w_i]. unfold set. destruct (Bool.eqb who who') eqn:Q; [|tauto]. apply Bool.eqb_prop in Q. subst. tauto. }
      destruct Y as (-> & en' & Hin & Hct & Hlab & Hres).
      assert (en' = en).
      { apply (li_label _ LI); auto.
        - apply (proj1 (run_keeps evs _)). now apply (proj1 (step_keeps w _)).
        - unfold en_epoch. now rewrite Hlab.
        - unfold en_index. now rewrite Hlab. }
      subst en'. exists [], evs, order, now. rewrite Hct. split; [reflexivity|]. unfold answer. cbn [RatchetConvModel.run fst].
      rewrite G1. auto.
  - right. exists (ev :: evs1), evs2, o, t. split; [reflexivity|].
    replace (fst (run w (ev :: evs1))) with (fst (run (fst (step w ev)) evs1)); auto.
    cbn [RatchetConvModel.run]. destruct (step w ev) as [w1 r]. cbn [fst]. now destruct (run w1 evs1).
Qed.

Lemma first_delivery w evs who o t en : inv w -> fair E w (evs ++ [Recv who o t (en_ct en)]) ->
  N.of_nat (length (w_log w) + length (evs ++ [Recv who o t (en_ct en)])) < 2 ^ 32 - 1 ->
  (forall b, (i_cur (w_i w b) + length (evs ++ [Recv who o t (en_ct en)]) + 1 <= E)%nat) ->
  i_got (w_i w who) = [] ->
  In en (w_log (fst (run w evs))) -> en_from en = negb who -> en_plain en <> [] ->
  en_index en <= 80 -> snd (en_label en) <= 80 ->
  (forall evs1 evs2 o' t', evs = evs1 ++ Recv who o' t' (en_ct en) :: evs2 ->
     answer (fst (run w evs1)) (Recv who o' t' (en_ct en)) = None) ->
  answer (fst (run w evs)) (Recv who o t (en_ct en)) = Some (en_plain en).
Proof.
  intros I F Hl HE G0 Hin Hfrom Hp H1 H2 Hno. apply fair_app in F. destruct F as [F1 F2].
  rewrite app_length in Hl. cbn [length] in Hl.
  assert (HE' : forall b, (i_cur (w_i w b) + (length evs + 1) + 1 <= E)%nat).
  { intros b. specialize (HE b). now rewrite app_length in HE. }
  destruct (run_ok evs w I F1) as (I1 & _ & C1 & L1).
  { lia. } { intros b. specialize (HE' b). lia. }
  destruct (step_ok _ _ [] I1 F2) as (_ & [G _] & _).
  { lia. } { intros b. specialize (HE' b). specialize (C1 b). lia. }
  assert (NG : ~ In (fst (en_label en)) (i_got (w_i (fst (run w evs)) who))).
  { intros X. destruct (got_returned evs who en w I F1) as [Y|(evs1 & evs2 & o' & t' & Y1 & Y2)]; [lia|intros b; specialize (HE' b); lia|auto|auto|auto| |].
    - rewrite G0 in Y. contradiction.
    - rewrite (Hno _ _ _ _ Y1) in Y2. discriminate. }
  unfold answer. rewrite G. cbn [RatchetConvModel.step]. destruct (decrypt _ _ _ _) as [r' out].
  rewrite (find_sent_spec _ (negb who) (en_ct en) en (iv_log _ I1) Hin eq_refl). rewrite Hfrom, Bool.eqb_reflx, eqb_refl. cbn [andb].
  destruct (ideal_recv _ _ _) as [i' ok] eqn:D. cbn [snd ideal_result]. enough (ok = true) by (subst; reflexivity).
  revert D. unfold ideal_recv. unfold en_index in H1. destruct (en_label en) as [[e i] prev] eqn:LB. cbn [fst snd] in *.
  apply mem_false in NG. rewrite NG. destruct (_ || _).
  - intros D; apply pair_equal_spec in D; destruct D as [<- <-]. now destruct (en_plain en).
  - destruct (Nat.eqb _ _).
    + destruct (N.ltb_spec 80 (i - i_high (w_i (fst (run w evs)) who))); [lia|congruence].
    + destruct (N.ltb_spec 80 (prev - i_high (w_i (fst (run w evs)) who))); [lia|].
      destruct (N.ltb_spec 80 i); [lia|]. cbn [orb]. congruence.
Qed.

(** ** The start *)

Definition start_alice (ma mb : option bytes) : ratchet :=
  mkRatchet (hmac sk root_label) zero32 (hmac sk header_label) (hmac sk next_send_label) (hmac sk next_recv_label)
    zero32 (hmac sk chain_label) zero32 (base (xs 1)) 0 0 0 true [] ma mb None.
Definition start_bob (ma mb : option bytes) : ratchet :=
  mkRatchet (hmac sk root_label) (hmac sk header_label) zero32 (hmac sk next_recv_label) (hmac sk next_send_label)
    (hmac sk chain_label) zero32 (xs 1) zero32 0 0 0 false [] mb ma None.

Definition start (a b : ratchet) : world :=
  mkWorld (fun who => if who then a else b) (fun who => if who then i_alice else i_bob) [].

Lemma start_inv ma mb : inv (start (start_alice ma mb) (start_bob ma mb)).
Proof.
  constructor; cbn [start w_r w_i w_log]; auto.
  - constructor; cbn [In]; tauto.
  - intros [|]; constructor; unfold i_alice, i_bob, start_alice, start_bob, recv_epoch, known;
      cbn [i_cur i_turn i_sent i_prev i_high i_got pred send_chain send_header send_count prev_count send_private root_key
           recv_header next_send_header next_recv_header recv_chain recv_public recv_count ratchet_flag saved mkeys map In negb];
      auto; try lia; try discriminate; try tauto; try (intros; repeat split; reflexivity); try reflexivity.
    intros e i He Hs. assert (e = 1%nat) by lia. subst. cbn. now destruct i.
  - unfold two. cbn. split; [|split]; auto; discriminate.
Qed.

(** ** A second message with the number of one that was taken *)

Lemma dup_refused w who order now e i prev pub hn mn body : inv w -> (i_cur (w_i w who) + 2 <= E)%nat ->
  In (e, i) (i_got (w_i w who)) -> i < 2 ^ 32 -> prev < 2 ^ 32 -> length hn = 24%nat -> length mn = 24%nat -> length pub = 32%nat ->
  (forall e' h, (1 <= e' <= E)%nat -> unseal (hk e') hn (seal (hk e) hn (header_plain i prev pub mn)) = Some h -> e' = e) ->
  decrypt (order (mkeys (saved (w_r w who)))) now (w_r w who) (hn ++ seal (hk e) hn (header_plain i prev pub mn) ++ body)
    = (w_r w who, Fail).
Proof.
  intros I HE G Hi Hp L1 L2 L3 C. pose proof (iv_party _ I who) as P. set (r := w_r w who) in *. set (p := w_i w who) in *.
  set (h := header_plain i prev pub mn) in *.
  assert (Lh : length h = 64%nat) by (now apply header_length).
  destruct (header_fields i prev pub mn Hi Hp L3 L2) as (F1 & _). fold h in F1.
  destruct (ct_parts hn (seal (hk e) hn h) body L1) as (P1 & P2 & P3 & P4); [rewrite seal_length, Lh; reflexivity|].
  set (ct := hn ++ seal (hk e) hn h ++ body) in *. clearbody ct.
  destruct (pi_got _ _ _ _ P _ _ G) as (G1 & G2 & G3).
  assert (RE : (recv_epoch p <= i_cur p)%nat) by (unfold recv_epoch; destruct (i_turn p); lia).
  pose proof (pi_saved _ _ _ _ P e i G2 G1) as SV. apply mem_In in G. rewrite G, andb_false_r in SV.
  assert (T : forall order, try_saved unseal order (saved r) ct = Some (saved r, [])).
  { induction order0 as [|k l IH]; cbn [try_saved]; auto. destruct (mget (saved r) k) as [keys|] eqn:M; auto.
    destruct (unseal k (ct_nonce ct) (ct_header ct)) as [h'|] eqn:U; auto.
    destruct (pi_keys _ _ _ _ P k) as (e' & He' & _ & ->); [now apply mget_Some_keys in M|].
    rewrite P1, P2 in U. assert (e' = e) by (eapply C; [|exact U]; lia). subst e'. rewrite box in U. injection U as <-.
    rewrite Lh. change (negb (N.of_nat 64 =? 64)) with false. cbv iota. rewrite F1.
    unfold lookup in SV. rewrite M in SV. destruct (mget keys i); [discriminate|reflexivity]. }
  unfold RatchetModel.decrypt. destruct (N.ltb_spec (N.of_nat (length ct)) 104); [lia|]. rewrite T, set_saved_id, P1, P2.
  rewrite (pi_rheader _ _ _ _ P). rewrite hk_nonzero by lia. destruct (Nat.eq_dec (recv_epoch p) e) as [Heq|Hne].
  - rewrite Heq, box. unfold decrypt_current. rewrite Lh. change (negb (N.of_nat 64 =? 64)) with false. cbv iota.
    rewrite F1, (pi_rcount _ _ _ _ P). unfold known in G3. rewrite Heq, Nat.eqb_refl in G3. now rewrite save_keys_past.
  - destruct (unseal (hk (recv_epoch p)) hn (seal (hk e) hn h)) as [x|] eqn:U; [exfalso; apply Hne; eapply C; [|exact U]; lia|].
    assert (NX : exists n, next_recv_header r = hk n /\ (recv_epoch p < n <= E)%nat).
    { unfold recv_epoch. destruct (i_turn p) eqn:Ht.
      - destruct (pi_turn_true _ _ _ _ P Ht) as (_ & _ & X). exists (S (S (i_cur p))). split; [exact X|lia].
      - destruct (pi_turn_false _ _ _ _ P Ht) as (_ & _ & _ & _ & _ & X). exists (S (i_cur p)). split; [exact X|]. pose proof (pi_cur _ _ _ _ P). lia. }
    destruct NX as (n & -> & Hn). destruct (unseal (hk n) hn (seal (hk e) hn h)) as [x|] eqn:U2; auto.
    assert (n = e) by (eapply C; [|exact U2]; lia). lia.
Qed.

(** A party that sends twice from the same ratchet within a chain: if the peer has
    taken the first message, it refuses the second. *)
Lemma resend_refused w who hn mn msg ct hn' mn' msg' ct' priv priv' r1 r2 evs2 o t m evs3 o' t' : inv w ->
  ratchet_flag (w_r w who) = false ->
  encrypt hmac sha256 x25519 base seal (w_r w who) priv hn mn msg = (r1, Some ct) ->
  encrypt hmac sha256 x25519 base seal (w_r w who) priv' hn' mn' msg' = (r2, Some ct') ->
  fair E w ([Send who hn mn msg] ++ evs2 ++ [Recv (negb who) o t ct] ++ evs3) ->
  N.of_nat (length (w_log w) + S (length evs2 + S (length evs3))) < 2 ^ 32 - 1 ->
  (forall b, (i_cur (w_i w b) + S (length evs2 + S (length evs3)) + 2 <= E)%nat) ->
  length hn' = 24%nat -> length mn' = 24%nat ->
  (forall e x, (1 <= e <= E)%nat -> unseal (hk e) (ct_nonce ct') (ct_header ct') = Some x -> hk e = send_header (w_r w who)) ->
  let w1 := fst (run w ([Send who hn mn msg] ++ evs2)) in
  let w2 := fst (run w ([Send who hn mn msg] ++ evs2 ++ [Recv (negb who) o t ct] ++ evs3)) in
  answer w1 (Recv (negb who) o t ct) = Some m ->
  r2 = r1 /\ decrypt (o' (mkeys (saved (w_r w2 (negb who))))) t' (w_r w2 (negb who)) ct' = (w_r w2 (negb who), Fail).
Proof.
  intros I Fl E1 E2 F Hl HE L1' L2' C w1 w2 A. split.
  { unfold encrypt in E1, E2. rewrite Fl in E1, E2. cbn [negb] in E1, E2. congruence. }
  pose proof (iv_party _ I who) as P. assert (Ht : i_turn (w_i w who) = false) by (rewrite <- (pi_flag _ _ _ _ P); exact Fl).
  destruct (pi_turn_false _ _ _ _ P Ht) as (SH & SC & SP & PC & _).
  subst w1 w2. set (ev := Send who hn mn msg) in *. rewrite app_assoc in F |- *. rewrite !run_app in *.
  apply fair_app in F. destruct F as [F1 F]. rewrite run_app in F. apply fair_app in F1. destruct F1 as [F0 F1].
  set (w0 := fst (run w [ev])) in *. set (w1 := fst (run w0 evs2)) in *.
  apply fair_app in F. destruct F as [F2 F3]. set (w2 := fst (run w1 [Recv (negb who) o t ct])) in *.
  destruct (run_ok [ev] w I F0) as (I0 & _ & C0 & L0). { cbn [length]. lia. } { intros b. specialize (HE b). cbn [length]. lia. }
  fold w0 in I0, C0, L0. cbn [length] in *.
  destruct (run_ok evs2 w0 I0 F1) as (I1 & _ & C1 & L1). { lia. } { intros b. specialize (HE b). specialize (C0 b). lia. }
  fold w1 in I1, C1, L1.
  destruct (run_ok [Recv (negb who) o t ct] w1 I1 F2) as (I2 & G2 & C2 & L2). { cbn [length]. lia. }
  { intros b. specialize (HE b). specialize (C0 b). specialize (C1 b). cbn [length]. lia. }
  fold w2 in I2, C2, L2. cbn [length] in *.
  destruct (run_ok evs3 w2 I2 F3) as (I3 & _ & C3 & L3). { lia. }
  { intros b. specialize (HE b). specialize (C0 b). specialize (C1 b). specialize (C2 b). lia. }
  set (w3 := fst (run w2 evs3)) in *.
  (* the entry of the first message *)
  assert (EN : exists en, In en (w_log w0) /\ en_ct en = ct /\ fst (en_label en) = (i_cur (w_i w who), i_sent (w_i w who))).
  { subst w0 ev. rewrite run_one. cbn [RatchetConvModel.step]. unfold ideal_send. rewrite Ht. cbn [fst snd].
    assert (X : forall p1 p2, encrypt hmac sha256 x25519 base seal (w_r w who) p1 hn mn msg = encrypt hmac sha256 x25519 base seal (w_r w who) p2 hn mn msg).
    { intros p1 p2. unfold encrypt. rewrite Fl. reflexivity. }
    rewrite (X _ priv), E1. eexists. cbn [fst w_log]. split; [now left|]. split; reflexivity. }
  destruct EN as (en & Hin & Hct & Hlab).
  assert (Hin1 : In en (w_log w1)) by (apply (proj1 (run_keeps evs2 w0)); exact Hin).
  (* the peer has taken it *)
  assert (TK : In (i_cur (w_i w who), i_sent (w_i w who)) (i_got (w_i w3 (negb who)))).
  { apply (proj2 (run_keeps evs3 w2)). unfold answer in A. assert (A' : ideal_result (snd (step w1 (Recv (negb who) o t ct))) = Some m).
    { assert (Gd : good (snd (step w1 (Recv (negb who) o t ct)))).
      { cbn [RatchetConvModel.run] in G2. destruct (step w1 _). inversion G2; auto. }
      rewrite <- A. symmetry. apply Gd. }
    subst w2. rewrite run_one. cbn [RatchetConvModel.step] in *. destruct (decrypt _ _ _ _) as [r' out].
    destruct (find_sent (w_log w1) (negb (negb who)) ct) as [en'|] eqn:FS; [|discriminate].
    assert (en' = en).
    { unfold find_sent in FS. apply find_some in FS. destruct FS as [X1 X2]. apply andb_prop in X2 as [_ X2].
      apply (li_nonce _ (iv_log _ I1)); auto. destruct (eqb_spec (en_ct en') ct); [congruence|discriminate]. }
    subst en'. pose proof (ideal_took (w_i w1 (negb who)) (en_label en) (en_plain en)) as TK.
    destruct (ideal_recv (w_i w1 (negb who)) (en_label en) (en_plain en)) as [i' ok]. cbn [fst snd ideal_result w_i] in *.
    destruct ok; [|discriminate]. rewrite set_eq, <- Hlab. auto. }
  (* the second *)
  unfold encrypt in E2. rewrite Fl in E2. cbn [negb] in E2. rewrite SH, SP, PC, (pi_scount _ _ _ _ P) in E2.
  assert (S32 : i_sent (w_i w who) < 2 ^ 32).
  { rewrite (pi_sent _ _ _ _ P), Ht. pose proof (cnt_le (w_log w) (i_cur (w_i w who))). lia. }
  assert (P32 : i_prev (w_i w who) < 2 ^ 32).
  { rewrite (pi_prev _ _ _ _ P Ht). pose proof (cnt_le (w_log w) (i_cur (w_i w who) - 2)). lia. }
  injection E2 as _ <-.
  set (hd := header_plain (i_sent (w_i w who)) (i_prev (w_i w who)) (base (xs (i_cur (w_i w who)))) mn') in *.
  assert (Lh : length hd = 64%nat) by (apply header_length; auto).
  destruct (ct_parts hn' (seal (hk (i_cur (w_i w who))) hn' hd) (seal (hmac (send_chain (w_r w who)) message_label) mn' msg') L1') as (Q1 & Q2 & _ & _);
    [rewrite seal_length, Lh; reflexivity|].
  rewrite Q1, Q2 in C. pose proof (pi_cur _ _ _ _ P). pose proof (HE who).
  apply dup_refused; auto.
  - specialize (HE (negb who)). specialize (C0 (negb who)). specialize (C1 (negb who)). specialize (C2 (negb who)). specialize (C3 (negb who)). lia.
  - intros e' x He' U. apply C in U; auto. rewrite SH in U. apply hk_inj in U; auto. lia.
Qed.
End Conv.
