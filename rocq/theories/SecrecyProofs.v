(** Proofs about stolen ratchets. *)
From Verif Require Import Base RatchetModel RatchetProofs RatchetConvModel RatchetConvProofs SecrecyModel.
Local Open Scope N_scope.

(** * Terms *)

Lemma tkm_inj e e' : (1 <= e)%nat -> (1 <= e')%nat -> tkm e = tkm e' -> e = e'.
Proof.
  destruct e as [|[|e]], e' as [|[|e']]; intros H H' E; try lia; try reflexivity; cbn in E; unfold tsk in E; try discriminate.
  injection E; intros; subst; reflexivity.
Qed.

Lemma tck_inj e i e' i' : (1 <= e)%nat -> (1 <= e')%nat -> tck e i = tck e' i' -> e = e' /\ i = i'.
Proof.
  intros H H'. revert i'; induction i as [|i IH]; intros [|i'] E; cbn [tck] in E; try discriminate.
  - injection E as E. split; [now apply tkm_inj|reflexivity].
  - injection E as E. apply IH in E as [-> ->]. auto.
Qed.

Definition sees (T1 T2 : term -> Prop) (t : term) : Prop := T1 t \/ T2 t.

(** * Nothing can be derived from the ciphertexts alone *)

Fixpoint blind (t : term) : Prop * Prop :=
  match t with
  | Pub _ | Lab _ => (False, True)
  | Half _ | Priv _ | Msg _ _ => (False, False)
  | Base s => (snd (blind s), True)
  | Mul s q => (snd (blind s) /\ fst (blind q), (snd (blind s) /\ snd (blind q)) \/ fst (blind q))
  | Cat a b => (False, snd (blind a) /\ snd (blind b))
  | Sha t => (False, snd (blind t))
  | Hmac k (Lab LHeader) | Hmac k (Lab LNextSend) | Hmac k (Lab LNextRecv) => (False, True)
  | Hmac k t => (False, snd (blind k) /\ snd (blind t))
  | Box k n m => (False, snd (blind n) /\ (snd (blind k) -> snd (blind m)))
  end.

Lemma blind_km e : (1 <= e)%nat -> ~ snd (blind (tkm e)).
Proof. destruct e as [|[|e]]; [lia| |]; cbn; intuition. Qed.
Lemma blind_ck e i : (1 <= e)%nat -> ~ snd (blind (tck e i)).
Proof. intros H. induction i as [|i IH]; cbn [tck blind fst snd]; [pose proof (blind_km e H)|]; tauto. Qed.
Lemma blind_hk e : snd (blind (thk e)).
Proof. destruct e as [|[|[|[|e]]]]; exact I. Qed.

Lemma no_theft sent e i : (forall e i p hn mn, In (e, i, p, hn, mn) sent -> (1 <= e)%nat) ->
  ~ derive (sees (fun t => exists e, t = thk e) (wire sent)) (Msg e i).
Proof.
  intros POS D. assert (C : forall t, derive (sees (fun t => exists e, t = thk e) (wire sent)) t -> snd (blind t)).
  { clear D. intros t D. induction D; try (cbn in *; tauto).
    - destruct H as [[e' ->]|(e' & i' & q & hn & mn & Hin & [->| ->])]; [apply blind_hk| |].
      + cbn. tauto.
      + cbn [tbody blind snd]. split; [exact I|]. intros K. exfalso. unfold tmk in K. cbn [blind snd] in K.
        apply (blind_ck e' (N.to_nat i') (POS _ _ _ _ _ Hin)), K.
    - cbn. destruct t; cbn in *; try tauto. destruct l; cbn; tauto. }
  apply C in D. exact D.
Qed.

(** * What can be derived: the keys of which messages *)

(** The message [i] of epoch [e] can be read with what a party holds. *)
Definition opened (p : iparty) (sv : nat -> N -> Prop) (e : nat) (i : N) : Prop :=
  e = 1%nat \/
  (i_turn p = false /\ (e = S (i_cur p) \/ (i_cur p = 2%nat /\ e = 2%nat))) \/
  (e = send_epoch p /\ i_sent p <= i) \/ (e = recv_epoch p /\ i_high p <= i) \/ sv e i.

Section Closed.
Variable p : iparty.
Variable sv : nat -> N -> Prop.
Variable sh : nat -> Prop.
Hypothesis cur : (1 <= i_cur p)%nat.
Hypothesis sv_pos : forall e i, sv e i -> (1 <= e)%nat.

Definition header_lab (t : term) : Prop :=
  match t with Lab LHeader | Lab LNextSend | Lab LNextRecv => True | _ => False end.

(** A set of terms that is closed under derivation: [snd] for every term, [fst] says of a
    point that all its scalars are in the set. *)
Fixpoint in_set (t : term) : Prop * Prop :=
  match t with
  | Pub _ | Lab _ | Half _ => (False, True)
  | Priv e => (False, i_turn p = false /\ e = i_cur p)
  | Msg e i => (False, opened p sv e i)
  | Base s => (snd (in_set s), True)
  | Mul s q => (snd (in_set s) /\ fst (in_set q), (snd (in_set s) /\ snd (in_set q)) \/ fst (in_set q))
  | Cat a b => (False, snd (in_set a) /\ snd (in_set b))
  | Sha t => (False, snd (in_set t))
  | Hmac k t => (False, (snd (in_set k) /\ snd (in_set t)) \/ held p sv sh (Hmac k t) \/ header_lab t)
  | Box k n m => (False, snd (in_set n) /\ (snd (in_set k) -> snd (in_set m)))
  end.
Notation ok t := (snd (in_set t)).

Lemma held_root e : (1 <= e)%nat -> held p sv sh (Hmac (tkm e) (Lab LRoot)) -> e = i_cur p.
Proof.
  intros He H. remember (Hmac (tkm e) (Lab LRoot)) as t eqn:T. destruct H; unfold tchain, tpublic, tmk, thk in T;
    repeat match type of T with context [match ?x with _ => _ end] => destruct x; try discriminate end; try discriminate.
  - injection T as T. symmetry. now apply tkm_inj.
  - destruct (N.to_nat (i_sent p)); discriminate.
  - destruct (N.to_nat (i_high p)); discriminate.
Qed.

Lemma thk_shape e : (exists b, thk e = Pub b) \/ (exists k l, thk e = Hmac k (Lab l) /\ header_lab (Lab l)).
Proof. destruct e as [|[|[|[|e]]]]; [left; eexists; reflexivity|right; do 2 eexists; split; [reflexivity|exact I]..]. Qed.

Lemma tck_shape e i : exists k l, tck e i = Hmac k (Lab l) /\ ((l = LChain /\ i = O /\ k = tkm e) \/ (l = LStep /\ exists j, i = S j /\ k = tck e j)).
Proof. destruct i; cbn; eauto 8. Qed.

Lemma held_chain e i : (1 <= e)%nat -> held p sv sh (tck e i) ->
  (e = send_epoch p /\ i = N.to_nat (i_sent p)) \/ (e = recv_epoch p /\ i = N.to_nat (i_high p)).
Proof.
  intros He H. remember (tck e i) as t eqn:T. destruct (tck_shape e i) as (k & l & K & L).
  assert (NH : forall f, thk f <> tck e i).
  { intros f X. rewrite K in X. destruct (thk_shape f) as [[b B]|(k' & l' & B & HL)]; rewrite B in X; [discriminate|].
    injection X as -> ->. destruct L as [[-> _]|[-> _]]; exact HL. }
  destruct H; try (exfalso; eapply NH; exact T); try (exfalso; rewrite K in T; destruct L as [[-> _]|[-> _]]; discriminate).
  - left. unfold tchain in T. destruct (send_epoch p) eqn:EP; [rewrite K in T; discriminate|].
    symmetry in T. apply tck_inj in T; [auto|lia|lia].
  - right. unfold tchain in T. destruct (recv_epoch p) eqn:EP; [rewrite K in T; discriminate|].
    symmetry in T. apply tck_inj in T; [auto|lia|lia].
  - exfalso. rewrite K in T. destruct (i_turn p); discriminate.
  - exfalso. rewrite K in T. unfold tpublic in T. destruct (recv_epoch p); discriminate.
Qed.

Lemma held_message e i : (1 <= e)%nat -> held p sv sh (tmk e i) -> sv e i.
Proof.
  intros He H. remember (tmk e i) as t eqn:T. unfold tmk in T.
  assert (NH : forall f, thk f <> Hmac (tck e (N.to_nat i)) (Lab LMessage)).
  { intros f X. destruct (thk_shape f) as [[b B]|(k' & l' & B & HL)]; rewrite B in X; [discriminate|].
    injection X as -> ->. exact HL. }
  assert (NC : forall f j, tchain f j <> Hmac (tck e (N.to_nat i)) (Lab LMessage)).
  { intros f j X. unfold tchain in X. destruct f; [discriminate|].
    destruct (tck_shape (S f) (N.to_nat j)) as (k & l & K & L). rewrite K in X. injection X as -> ->.
    destruct L as [[? _]|[? _]]; discriminate. }
  destruct H; try (exfalso; eapply NH; exact T); try (exfalso; eapply NC; exact T); try discriminate.
  - exfalso. destruct (i_turn p); discriminate.
  - exfalso. unfold tpublic in T. destruct (recv_epoch p); discriminate.
  - unfold tmk in T. injection T as T. pose proof (sv_pos _ _ H). apply tck_inj in T as [-> T]; auto.
    apply N2Nat.inj in T. now subst.
Qed.

(** The chains of which epochs can be computed from the start. *)
Definition km_open (e : nat) : Prop :=
  e = 1%nat \/ (i_turn p = false /\ (e = S (i_cur p) \/ (i_cur p = 2%nat /\ e = 2%nat))).

Lemma ok_km e : (1 <= e)%nat -> ok (tkm e) -> km_open e.
Proof.
  unfold km_open. induction e as [|e IH]; [lia|]. intros _ H. destruct e as [|e]; [auto|].
  change (tkm (S (S e))) with (Sha (Cat (Lab LUpdate) (Cat (Hmac (tkm (S e)) (Lab LRoot)) (tdh (S (S e)))))) in H.
  cbn [in_set snd tdh fst pred] in H. destruct H as (_ & HR & HD). right.
  assert (C : i_turn p = false /\ (i_cur p = S (S e) \/ i_cur p = S e)) by (destruct HD as [[[? ?] _]|[? ?]]; auto).
  destruct C as [C1 [C2|C2]]; (split; [exact C1|]); [|left; lia].
  destruct HR as [[HR _]|[HR|[]]].
  - apply IH in HR; [|lia]. destruct HR as [HR|(_ & [HR|HR])]; lia.
  - apply held_root in HR; lia.
Qed.

Lemma ok_ck e i : (1 <= e)%nat -> ok (tck e i) ->
  km_open e \/ (e = send_epoch p /\ i_sent p <= N.of_nat i) \/ (e = recv_epoch p /\ i_high p <= N.of_nat i).
Proof.
  intros He. induction i as [|i IH]; intros H.
  - assert (X : held p sv sh (tck e 0) \/ ok (tkm e)) by (cbn in H |- *; tauto).
    destruct X as [X|X]; [apply held_chain in X as [[-> X]|[-> X]]; auto; right; [left|right]; split; auto; lia|].
    left. now apply ok_km.
  - assert (X : held p sv sh (tck e (S i)) \/ ok (tck e i)) by (cbn in H |- *; tauto).
    destruct X as [X|X]; [apply held_chain in X as [[-> X]|[-> X]]; auto; right; [left|right]; split; auto; lia|].
    destruct (IH X) as [Y|[[Y1 Y2]|[Y1 Y2]]]; [auto|right; left|right; right]; split; auto; lia.
Qed.

Lemma ok_mk e i : (1 <= e)%nat -> ok (tmk e i) -> opened p sv e i.
Proof.
  intros He H. unfold opened.
  assert (X : held p sv sh (tmk e i) \/ ok (tck e (N.to_nat i))) by (unfold tmk in *; cbn in H |- *; tauto).
  destruct X as [X|X]; [apply held_message in X; auto|].
  apply ok_ck in X; auto. rewrite N2Nat.id in X. unfold km_open in X. tauto.
Qed.

Lemma ok_thk e : ok (thk e).
Proof. destruct (thk_shape e) as [[b ->]|(k & l & -> & L)]; cbn; auto. Qed.

Lemma held_ok t : held p sv sh t -> ok t.
Proof.
  intros H. pose proof H as HH. destruct H; try apply ok_thk.
  - cbn. auto.
  - unfold tchain in *. destruct (send_epoch p); [exact I|]. destruct (N.to_nat (i_sent p)); cbn; auto.
  - unfold tchain in *. destruct (recv_epoch p); [exact I|]. destruct (N.to_nat (i_high p)); cbn; auto.
  - destruct (i_turn p) eqn:T; cbn; auto.
  - unfold tpublic. destruct (recv_epoch p); cbn; auto.
  - exact I.
  - unfold tmk in *. cbn. auto.
Qed.

Lemma wire_ok sent t : (forall e i q hn mn, In (e, i, q, hn, mn) sent -> (1 <= e)%nat) -> wire sent t -> ok t.
Proof.
  intros P (e & i & q & hn & mn & H & [-> | ->]); apply P in H.
  - cbn [theader in_set snd fst]. repeat split; auto.
  - cbn [tbody in_set snd fst]. split; [exact I|]. now apply ok_mk.
Qed.

Lemma closed (T : term -> Prop) t : (forall t, T t -> ok t) -> derive T t -> ok t.
Proof.
  intros HT D. induction D; cbn [in_set snd fst] in *; auto; try tauto.
Qed.

Lemma upper sent e i : (forall e i q hn mn, In (e, i, q, hn, mn) sent -> (1 <= e)%nat) ->
  derive (sees (held p sv sh) (wire sent)) (Msg e i) -> opened p sv e i.
Proof.
  intros P D. apply closed in D; [exact D|]. intros t [H|H]; [now apply held_ok|now apply (wire_ok sent)].
Qed.

(** ** The other way round *)

Section Lower.
Variable T : term -> Prop.
Hypothesis all : forall t, held p sv sh t -> T t.

Lemma d_held t : held p sv sh t -> derive T t.
Proof. intros H. apply D_in, all, H. Qed.

Lemma d_sk : derive T tsk.
Proof. apply D_sha, D_cat; apply d_held; constructor. Qed.

Lemma d_km e root : (1 <= e)%nat -> derive T root -> root = Hmac (tkm e) (Lab LRoot) -> derive T (tdh (S e)) -> derive T (tkm (S e)).
Proof.
  intros He R -> D. destruct e as [|e]; [lia|]. change (tkm (S (S e))) with (Sha (Cat (Lab LUpdate) (Cat (Hmac (tkm (S e)) (Lab LRoot)) (tdh (S (S e)))))).
  apply D_sha, D_cat; [apply D_lab|]. apply D_cat; auto.
Qed.

Lemma d_ck e i : derive T (tkm e) -> derive T (tck e i).
Proof. intros K. induction i; cbn [tck]; apply D_hmac; auto; apply D_lab. Qed.
Lemma d_ck_from e i j : (i <= j)%nat -> derive T (tck e i) -> derive T (tck e j).
Proof. intros L K. induction L; auto. cbn [tck]. apply D_hmac; auto. apply D_lab. Qed.

Lemma lower e i q hn mn : T (theader e i q hn mn) -> T (tbody e i mn) -> (1 <= e)%nat -> opened p sv e i -> derive T (Msg e i).
Proof.
  intros TH TB He O. eapply D_open; [apply D_in; exact TB|]. unfold tmk.
  destruct O as [O|[[O1 O2]|[[O1 O2]|[[O1 O2]|O]]]].
  - subst e. apply D_hmac; [|apply D_lab]. apply d_ck. exact d_sk.
  - apply D_hmac; [|apply D_lab]. apply d_ck. pose proof (d_held _ (H_private p sv sh)) as HP. rewrite O1 in HP.
    destruct O2 as [O2|[O2 O3]].
    + subst e. eapply d_km; [exact cur|apply d_held; constructor|reflexivity|]. unfold tdh. cbn [pred].
      apply D_comm, D_mul; [exact HP|].
      assert (B : derive T (Cat (Pub (put_le32 i)) (Cat (Pub (put_le32 q)) (Cat (Base (Priv (S (i_cur p)))) (Pub mn))))).
      { eapply D_open; [apply D_in; exact TH|]. apply d_held. constructor. }
      apply D_right, D_right, D_left in B. exact B.
    + subst e. rewrite O2 in HP. eapply (d_km 1); [lia| |reflexivity|].
      * apply D_hmac; [exact d_sk|apply D_lab].
      * unfold tdh. apply D_mul; [exact HP|]. pose proof (d_held _ (H_public p sv sh)) as Q.
        unfold recv_epoch in Q. rewrite O1, O2 in Q. exact Q.
  - pose proof (d_held _ (H_send_chain p sv sh)) as Q. rewrite <- O1 in Q. unfold tchain in Q. destruct e; [lia|].
    apply D_hmac; [|apply D_lab]. eapply d_ck_from; [|exact Q]. lia.
  - pose proof (d_held _ (H_recv_chain p sv sh)) as Q. rewrite <- O1 in Q. unfold tchain in Q. destruct e; [lia|].
    apply D_hmac; [|apply D_lab]. eapply d_ck_from; [|exact Q]. lia.
  - apply d_held. now constructor.
Qed.
End Lower.
End Closed.

(** * Executions: the fields that the invariant of RatchetConvProofs leaves open *)

Ltac pe := let Q := fresh in intros Q; apply pair_equal_spec in Q; destruct Q as [<- _].

Lemma decrypt_shape hmac sha256 x25519 unseal order now r ct r' out :
  decrypt hmac sha256 x25519 unseal order now r ct = (r', out) ->
  my_half r' = my_half r /\ their_half r' = their_half r /\ kx_private r' = kx_private r /\
  send_header r' = send_header r /\ send_chain r' = send_chain r /\
  ((ratchet_flag r' = ratchet_flag r /\ recv_public r' = recv_public r /\ send_private r' = send_private r /\
    (is_zero_key (recv_header r) = true -> recv_chain r' = recv_chain r)) \/
   (ratchet_flag r = false /\ ratchet_flag r' = true /\ send_private r' = zero32)).
Proof.
  intros H. unfold decrypt in H.
  destruct (_ <? 104); [revert H; pe; tauto|].
  destruct (try_saved _ _ _ _) as [[sv [|c m]]|]; [|revert H; pe; cbn; tauto|revert H; pe; tauto].
  assert (N : forall r0 h r1 o, decrypt_next hmac sha256 x25519 unseal now r0 h ct = (r1, o) -> r1 = r0 \/
     (my_half r1 = my_half r0 /\ their_half r1 = their_half r0 /\ kx_private r1 = kx_private r0 /\
      send_header r1 = send_header r0 /\ send_chain r1 = send_chain r0 /\
      ratchet_flag r0 = false /\ ratchet_flag r1 = true /\ send_private r1 = zero32)).
  { clear H. intros r0 h r1 o. unfold decrypt_next. destruct (negb _); [pe; auto|].
    destruct (ratchet_flag r0) eqn:F; [pe; auto|].
    destruct (save_keys _ _ _ _ _); [pe; auto..|].
    destruct (x25519 _ _); [|pe; auto].
    destruct (save_keys _ _ _ _ _); [pe; auto..|].
    destruct (unseal _ _ _); [|pe; auto]. pe. right. cbn. auto 10. }
  assert (C : forall r0 h r1 o, decrypt_current hmac unseal now r0 h ct = (r1, o) ->
      my_half r1 = my_half r0 /\ their_half r1 = their_half r0 /\ kx_private r1 = kx_private r0 /\
      send_header r1 = send_header r0 /\ send_chain r1 = send_chain r0 /\
      ratchet_flag r1 = ratchet_flag r0 /\ recv_public r1 = recv_public r0 /\ send_private r1 = send_private r0).
  { clear H. intros r0 h r1 o. unfold decrypt_current. destruct (negb _); [pe; tauto|].
    destruct (save_keys _ _ _ _ _); [pe; tauto..|].
    destruct (unseal _ _ _); pe; cbn; tauto. }
  cbv zeta in H. cbn [recv_header set_saved next_recv_header] in H.
  destruct (is_zero_key (recv_header r)) eqn:Z.
  - destruct (unseal _ _ _) as [h|]; [|revert H; pe; cbn; tauto].
    apply N in H as [->|H]; cbn in *; tauto.
  - destruct (unseal (recv_header r) _ _) as [h|].
    + apply C in H. cbn in H. intuition discriminate.
    + destruct (unseal _ _ _) as [h|]; [|revert H; pe; cbn; tauto].
      apply N in H as [->|H]; cbn in *; [intuition discriminate|tauto].
Qed.

Lemma ideal_shape p l m p' ok : ideal_recv p l m = (p', ok) ->
  i_sent p' = i_sent p /\
  ((i_turn p' = i_turn p /\ i_cur p' = i_cur p) \/ (i_turn p' = true /\ (recv_epoch p < i_cur p')%nat)).
Proof.
  unfold ideal_recv. destruct l as [[e i] prev].
  destruct (mem _ _); [pe; auto|].
  destruct (e <? recv_epoch p)%nat eqn:L; [pe; auto|].
  apply Nat.ltb_ge in L. cbn [orb].
  destruct (Nat.eqb_spec e (recv_epoch p)) as [->|NE]; cbn [andb].
  - destruct (i <? i_high p); [pe; auto|].
    destruct (80 <? _); pe; auto.
  - destruct (_ || _); pe; auto. cbn. split; auto. right. split; auto. lia.
Qed.

Section Runs.
Variable hmac : bytes -> bytes -> bytes.
Variable sha256 : bytes -> bytes.
Variable x25519 : bytes -> bytes -> option bytes.
Variable base : bytes -> bytes.
Variable seal : bytes -> bytes -> bytes -> bytes.
Variable unseal : bytes -> bytes -> bytes -> option bytes.
Variable xs : nat -> bytes.
Variable sk : bytes.
Variable half : bool -> bytes.

Notation hk := (hk hmac sha256 x25519 base xs sk).
Notation ck := (ck hmac sha256 x25519 base xs sk).
Notation inv := (inv hmac sha256 x25519 base seal xs sk).
Notation step := (step hmac sha256 x25519 base seal unseal xs).
Notation run := (run hmac sha256 x25519 base seal unseal xs).

Record extra (who : bool) (r : ratchet) (p : iparty) : Prop := {
  x_my : my_half r = Some (half who);
  x_their : their_half r = Some (half (negb who));
  x_kx : kx_private r = None;
  x_turn : i_turn p = true -> send_private r = zero32 /\
    (i_cur p = 1%nat -> send_header r = zero32 /\ send_chain r = zero32) /\
    ((2 <= i_cur p)%nat -> send_header r = hk (pred (i_cur p)) /\ send_chain r = ck (pred (i_cur p)) (N.to_nat (i_sent p)));
  x_wait : i_turn p = false ->
    (i_cur p = 1%nat -> recv_public r = zero32 /\ recv_chain r = zero32) /\
    ((2 <= i_cur p)%nat -> recv_public r = base (xs (pred (i_cur p)))) }.

Lemma extra_step w ev : inv w -> inv (fst (step w ev)) -> hangs (snd (step w ev)) = false ->
  (forall who, extra who (w_r w who) (w_i w who)) ->
  forall who, extra who (w_r (fst (step w ev)) who) (w_i (fst (step w ev)) who).
Proof.
  intros I I' HG X b. destruct ev as [who hn mn msg|who order now ct].
  - pose proof (iv_party _ _ _ _ _ _ _ _ I who) as P. pose proof (X who) as XW.
    cbn [RatchetConvModel.step] in *. destruct (ideal_send (w_i w who)) as [i' l] eqn:IS.
    unfold encrypt in *. rewrite (pi_flag _ _ _ _ _ _ _ _ _ _ P) in *.
    unfold ideal_send in IS.
    destruct (i_turn (w_i w who)) eqn:T.
    + unfold ratchet_step in *. destruct (x25519 _ _) as [sh|]; cbn [negb fst snd hangs] in *; [|discriminate].
      cbn [w_r w_i]. destruct (Bool.bool_dec b who) as [->|NB].
      2: { replace b with (negb who) by (destruct b, who; auto; contradiction). rewrite !set_ne. apply X. }
      rewrite !set_eq. injection IS as <- <-. destruct XW as [X1 X2 X3 X4 X5].
      pose proof (pi_turn_true _ _ _ _ _ _ _ _ _ _ P T) as (RP & _).
      pose proof (pi_cur _ _ _ _ _ _ _ _ _ _ P) as C.
      split; cbn; auto; try discriminate. intros _. split; [intros; lia|]. auto.
    + cbn [negb fst snd hangs] in *. cbn [w_r w_i]. destruct (Bool.bool_dec b who) as [->|NB].
      2: { replace b with (negb who) by (destruct b, who; auto; contradiction). rewrite !set_ne. apply X. }
      rewrite !set_eq. injection IS as <- <-. destruct XW as [X1 X2 X3 X4 X5].
      split; cbn; auto; discriminate.
  - pose proof (iv_party _ _ _ _ _ _ _ _ I who) as P. pose proof (X who) as XW.
    pose proof (iv_party _ _ _ _ _ _ _ _ I' who) as P'. pose proof (two_who _ _ _ _ _ _ _ _ who I) as W.
    pose proof (two_who _ _ _ _ _ _ _ _ who I') as W'.
    cbn [RatchetConvModel.step] in *.
    destruct (decrypt _ _ _ _ _ _ _ ct) as [r' out] eqn:D. apply decrypt_shape in D as (D1 & D2 & D3 & D4 & D5 & D6).
    set (q := match find_sent (w_log w) (negb who) ct with
              | None => (w_i w who, None)
              | Some en => let '(i', ok) := ideal_recv (w_i w who) (en_label en) (en_plain en) in
                           (i', if ok then Some (en_plain en) else None)
              end) in *.
    assert (Q : i_sent (fst q) = i_sent (w_i w who) /\
      ((i_turn (fst q) = i_turn (w_i w who) /\ i_cur (fst q) = i_cur (w_i w who)) \/
       (i_turn (fst q) = true /\ (recv_epoch (w_i w who) < i_cur (fst q))%nat))).
    { unfold q. destruct (find_sent _ _ _) as [en|]; [|auto].
      destruct (ideal_recv _ _ _) as [i' ok] eqn:IR. apply ideal_shape in IR. exact IR. }
    destruct q as [p' res]. cbn [fst snd w_r w_i] in *. destruct (Bool.bool_dec b who) as [->|NB].
    2: { replace b with (negb who) by (destruct b, who; auto; contradiction). rewrite !set_ne. apply X. }
    rewrite !set_eq in *. rewrite set_ne in W'. destruct Q as [QS Q].
    pose proof (pi_flag _ _ _ _ _ _ _ _ _ _ P) as FL. pose proof (pi_flag _ _ _ _ _ _ _ _ _ _ P') as FL'.
    pose proof (pi_cur _ _ _ _ _ _ _ _ _ _ P) as C.
    destruct XW as [X1 X2 X3 X4 X5]. destruct W as (W1 & W2 & W3). destruct W' as (W1' & _ & _).
    destruct D6 as [(E1 & E2 & E3 & E4)|(E1 & E2 & E3)].
    + assert (TT : i_turn p' = i_turn (w_i w who)) by congruence.
      assert (CC : i_cur p' = i_cur (w_i w who)).
      { destruct Q as [[_ Q]|[Q1 Q2]]; auto. rewrite TT in Q1. rewrite TT in W1'.
        destruct (W1 Q1) as [_ A]. destruct (W1' Q1) as [_ B]. congruence. }
      split; try congruence.
      * intros T. rewrite TT in T. rewrite CC, QS, E3, D4, D5. auto.
      * intros T. rewrite TT in T. rewrite CC, E2. destruct (X5 T) as [Y1 Y2]. split; auto.
        intros C1. split; [now apply Y1|]. rewrite E4; [now apply Y1|].
        rewrite (pi_rheader _ _ _ _ _ _ _ _ _ _ P). unfold recv_epoch. rewrite T, C1. reflexivity.
    + assert (T : i_turn (w_i w who) = false) by congruence. assert (T' : i_turn p' = true) by congruence.
      destruct Q as [[Q _]|[_ Q2]]; [congruence|].
      assert (CC : i_cur p' = S (i_cur (w_i w who))).
      { destruct (W1' T') as [NT B]. rewrite <- B in *. destruct (W3 T NT) as [A|A]; [|exact A].
        exfalso. unfold recv_epoch in Q2. rewrite T in Q2. rewrite A in Q2. cbn in Q2. clear -Q2. Lia.lia. }
      pose proof (pi_turn_false _ _ _ _ _ _ _ _ _ _ P T) as (F1 & F2 & _).
      split; try congruence. intros _. split; [exact E3|]. rewrite CC, QS. cbn [pred]. split; [intros Y; exfalso; clear - C Y; Lia.lia|].
      intros _. split; congruence.
Qed.

(** ** The values of the terms *)

Variable msg : nat -> N -> bytes.
Hypothesis sk_half : sk = sha256 (half true ++ half false).
Notation km := (km hmac sha256 x25519 base xs sk).
Notation mk := (mk hmac sha256 x25519 base xs sk).
Notation value := (value hmac sha256 x25519 base seal xs half msg).

Lemma value_sk : value tsk = sk.
Proof. now rewrite sk_half. Qed.
Lemma value_km e : value (tkm e) = km e.
Proof.
  induction e as [|[|e] IH]; [apply value_sk|apply value_sk|].
  change (tkm (S (S e))) with (Sha (Cat (Lab LUpdate) (Cat (Hmac (tkm (S e)) (Lab LRoot)) (tdh (S (S e)))))).
  cbn [SecrecyModel.value label_of tdh pred]. rewrite IH. reflexivity.
Qed.
Lemma value_hk e : value (thk e) = hk e.
Proof.
  destruct e as [|[|[|[|e]]]]; try reflexivity; try (cbn [thk SecrecyModel.value label_of]; rewrite ?value_sk; reflexivity).
  change (thk (S (S (S (S e))))) with (Hmac (tkm (S (S e))) (Lab LNextSend)). cbn [SecrecyModel.value label_of].
  rewrite value_km. reflexivity.
Qed.
Lemma value_ck e i : value (tck e i) = ck e i.
Proof.
  induction i as [|i IH]; cbn [tck SecrecyModel.value label_of RatchetConvModel.ck].
  - now rewrite value_km.
  - now rewrite IH.
Qed.
Lemma value_mk e i : value (tmk e i) = mk e i.
Proof. unfold tmk. cbn [SecrecyModel.value label_of]. now rewrite value_ck. Qed.

(** ** What a ratchet stores *)

Definition missing (log : list entry) (who : bool) (p : iparty) (e : nat) (i : N) : Prop :=
  (1 <= e <= recv_epoch p)%nat /\ sender e = negb who /\ i < known log p e /\ ~ In (e, i) (i_got p).
Definition headers (r : ratchet) (p : iparty) (e : nat) : Prop := (1 <= e <= recv_epoch p)%nat /\ In (hk e) (mkeys (saved r)).

Lemma stored_held log who r p x : party_inv hmac sha256 x25519 base xs sk log who r p -> extra who r p ->
  stored r x -> exists t, held p (missing log who p) (headers r p) t /\ value t = x.
Proof.
  intros P X S. assert (C := pi_cur _ _ _ _ _ _ _ _ _ _ P).
  assert (XI : forall t, held p (missing log who p) (headers r p) t -> value t = x ->
     exists t, held p (missing log who p) (headers r p) t /\ value t = x) by eauto.
  destruct X as [X1 X2 X3 X4 X5]. unfold stored in S. rewrite X1, X2, X3 in S. cbn [opt app] in S.
  destruct S as [S|[S|(h & keys & n & k & S1 & S2 & S3)]].
  - pose proof (pi_turn_true _ _ _ _ _ _ _ _ _ _ P) as TT. pose proof (pi_turn_false _ _ _ _ _ _ _ _ _ _ P) as TF.
    assert (SH : send_header r = hk (send_epoch p) /\ send_chain r = value (tchain (send_epoch p) (i_sent p))).
    { unfold send_epoch. destruct (i_turn p).
      - destruct (X4 eq_refl) as (_ & Y1 & Y2). destruct (i_cur p) as [|[|c]]; [exfalso; clear - C; Lia.lia| |].
        + destruct (Y1 eq_refl) as [-> ->]. split; reflexivity.
        + destruct Y2 as [-> ->]; [clear; Lia.lia|]. cbn [pred tchain]. now rewrite value_ck.
      - destruct (TF eq_refl) as (-> & -> & _). destruct (i_cur p); [exfalso; clear - C; Lia.lia|].
        cbn [tchain]. now rewrite value_ck. }
    assert (RC : recv_chain r = value (tchain (recv_epoch p) (i_high p)) /\ recv_public r = value (tpublic (recv_epoch p))).
    { pose proof (pi_rchain _ _ _ _ _ _ _ _ _ _ P) as Q. revert Q. unfold recv_epoch. destruct (i_turn p).
      - destruct (TT eq_refl) as (-> & _). intros Q. rewrite (Q C). destruct (i_cur p); [exfalso; clear - C; Lia.lia|].
        cbn [tchain]. now rewrite value_ck.
      - destruct (X5 eq_refl) as [Y1 Y2]. intros Q. destruct (i_cur p) as [|[|c]]; [exfalso; clear - C; Lia.lia| |].
        + destruct (Y1 eq_refl) as [-> ->]. split; reflexivity.
        + cbn [pred] in *. rewrite Q, Y2 by (clear; Lia.lia). cbn [tchain]. now rewrite value_ck. }
    destruct SH as [SH SC], RC as [RC RP].
    cbn [In] in S. destruct S as [S|[S|[S|[S|[S|[S|[S|[S|[S|[S|[S|[]]]]]]]]]]]].
    + apply (XI _ (H_root _ _ _)). cbn [SecrecyModel.value label_of]. rewrite value_km, <- S. symmetry. apply P.
    + apply (XI _ (H_send_header _ _ _)). rewrite value_hk. congruence.
    + apply (XI _ (H_recv_header _ _ _)). rewrite value_hk, <- S. symmetry. apply P.
    + destruct (i_turn p).
      * apply (XI _ (H_next1 _ _ _)). rewrite value_hk, <- S. symmetry. now apply TT.
      * apply (XI _ (H_next2 _ _ _)). rewrite value_hk, <- S. symmetry. now apply TF.
    + destruct (i_turn p).
      * apply (XI _ (H_next2 _ _ _)). rewrite value_hk, <- S. symmetry. now apply TT.
      * apply (XI _ (H_next1 _ _ _)). rewrite value_hk, <- S. symmetry. now apply TF.
    + apply (XI _ (H_send_chain _ _ _)). congruence.
    + apply (XI _ (H_recv_chain _ _ _)). congruence.
    + apply (XI _ (H_private _ _ _)). destruct (i_turn p); cbn [SecrecyModel.value]; [destruct (X4 eq_refl)|destruct (TF eq_refl) as (_ & _ & TF' & _)]; congruence.
    + apply (XI _ (H_public _ _ _)). congruence.
    + apply (XI _ (H_half _ _ _ who)). exact S.
    + apply (XI _ (H_half _ _ _ (negb who))). exact S.
  - destruct (pi_keys _ _ _ _ _ _ _ _ _ _ P x S) as (e & E1 & E2 & ->).
    apply (XI (thk e)); [|apply value_hk]. apply H_saved_header. split; auto.
  - assert (K : In h (mkeys (saved r))) by (eapply mget_Some_keys; eauto).
    destruct (pi_keys _ _ _ _ _ _ _ _ _ _ P h K) as (e & E1 & E2 & ->).
    pose proof (pi_saved _ _ _ _ _ _ _ _ _ _ P e n E1 E2) as Q. unfold lookup in Q. rewrite S1, S2 in Q. cbn [option_map] in Q.
    destruct (n <? known log p e) eqn:L; [|discriminate]. destruct (mem (e, n) (i_got p)) eqn:M; [discriminate|].
    cbn [andb negb] in Q. injection Q as Q. apply (XI (tmk e n)); [|rewrite value_mk; congruence].
    apply H_saved. unfold missing. split; [exact E1|]. split; [exact E2|]. split; [now apply N.ltb_lt|].
    intros Y. apply mem_In in Y. congruence.
Qed.

Lemma held_stored log who r p t : party_inv hmac sha256 x25519 base xs sk log who r p -> extra who r p ->
  held p (missing log who p) (headers r p) t -> stored r (value t).
Proof.
  intros P X H. assert (C := pi_cur _ _ _ _ _ _ _ _ _ _ P).
  destruct X as [X1 X2 X3 X4 X5]. unfold stored. rewrite X1, X2, X3. cbn [opt app In].
  pose proof (pi_turn_true _ _ _ _ _ _ _ _ _ _ P) as TT. pose proof (pi_turn_false _ _ _ _ _ _ _ _ _ _ P) as TF.
  destruct H as [| | | | | | | | |b|e i M|e [M1 M2]].
  - left. left. cbn [SecrecyModel.value label_of]. rewrite value_km. apply P.
  - left. right; left. rewrite value_hk. unfold send_epoch. destruct (i_turn p); [|now apply TF].
    destruct (X4 eq_refl) as (_ & Y1 & Y2). destruct (i_cur p) as [|[|c]]; [exfalso; clear - C; Lia.lia|now apply Y1|].
    apply Y2. clear; Lia.lia.
  - left. do 2 right; left. rewrite value_hk. apply P.
  - left. rewrite value_hk. destruct (i_turn p); [do 3 right; left; now apply TT|do 4 right; left; now apply TF].
  - left. rewrite value_hk. destruct (i_turn p); [do 4 right; left; now apply TT|do 3 right; left; now apply TF].
  - left. do 5 right; left. unfold send_epoch. destruct (i_turn p).
    + destruct (X4 eq_refl) as (_ & Y1 & Y2). destruct (i_cur p) as [|[|c]]; [exfalso; clear - C; Lia.lia|now apply Y1|].
      cbn [tchain pred]. rewrite value_ck. apply Y2. clear; Lia.lia.
    + destruct (TF eq_refl) as (_ & Y & _). destruct (i_cur p); [exfalso; clear - C; Lia.lia|]. cbn [tchain]. now rewrite value_ck.
  - left. do 6 right; left. pose proof (pi_rchain _ _ _ _ _ _ _ _ _ _ P) as Q. revert Q. unfold recv_epoch. destruct (i_turn p); intros Q.
    + rewrite (Q C). destruct (i_cur p); [exfalso; clear - C; Lia.lia|]. cbn [tchain]. now rewrite value_ck.
    + destruct (X5 eq_refl) as [Y1 Y2]. destruct (i_cur p) as [|[|c]]; [exfalso; clear - C; Lia.lia|now apply Y1|].
      cbn [pred] in *. rewrite Q by (clear; Lia.lia). cbn [tchain]. now rewrite value_ck.
  - left. do 7 right; left. destruct (i_turn p); cbn [SecrecyModel.value]; [now apply X4|now apply TF].
  - left. do 8 right; left. unfold recv_epoch. destruct (i_turn p).
    + destruct (TT eq_refl) as (-> & _). destruct (i_cur p); [exfalso; clear - C; Lia.lia|]. reflexivity.
    + destruct (X5 eq_refl) as [Y1 Y2]. destruct (i_cur p) as [|[|c]]; [exfalso; clear - C; Lia.lia|now apply Y1|].
      apply Y2. clear; Lia.lia.
  - left. cbn [SecrecyModel.value]. destruct b, who; cbn [negb]; auto 20.
  - right; right. destruct M as (M1 & M2 & M3 & M4). pose proof (pi_saved _ _ _ _ _ _ _ _ _ _ P e i M1 M2) as Q.
    apply N.ltb_lt in M3. rewrite M3 in Q. destruct (mem (e, i) (i_got p)) eqn:M; [apply mem_In in M; contradiction|].
    cbn [andb negb] in Q. unfold lookup in Q. destruct (mget (saved r) (hk e)) as [keys|] eqn:G1; [|discriminate].
    destruct (mget keys i) as [k|] eqn:G2; [|discriminate]. injection Q as Q. exists (hk e), keys, i, k. rewrite value_mk. auto.
  - right; left. rewrite value_hk. exact M2.
Qed.

(** ** What travels *)

Definition travels (en : entry) (s : sent_as) : Prop :=
  let '(e, i, p, hn, mn) := s in
  en_label en = (e, i, p) /\ length hn = 24%nat /\ length mn = 24%nat /\
  en_ct en = hn ++ value (theader e i p hn mn) ++ value (tbody e i mn).

Lemma wire_values log : log_inv hmac sha256 x25519 base seal xs sk log ->
  (forall en, In en log -> msg (en_epoch en) (en_index en) = en_plain en) ->
  exists sent, Forall2 travels log sent.
Proof.
  intros L M. assert (A : forall l, (forall en, In en l -> In en log) -> exists sent, Forall2 travels l sent).
  { induction l as [|en l IH]; intros H; [exists []; constructor|].
    destruct IH as [sent F]; [intros; apply H; cbn; auto|].
    pose proof (li_genuine _ _ _ _ _ _ _ _ L en (H en (or_introl eq_refl))) as G. unfold genuine in G.
    specialize (M en (H en (or_introl eq_refl))). unfold en_epoch, en_index in M.
    destruct (en_label en) as [[e i] p] eqn:LB. cbn [fst snd] in M. destruct G as (hn & mn & L1 & L2 & CT & _).
    exists ((e, i, p, hn, mn) :: sent). constructor; auto. unfold travels. repeat split; auto.
    unfold theader, tbody. cbn [SecrecyModel.value]. rewrite value_hk, value_mk, M, CT. reflexivity. }
  apply A. auto.
Qed.
End Runs.

(** * Conversations *)

Section Conversation.
Variable hmac : bytes -> bytes -> bytes.
Variable sha256 : bytes -> bytes.
Variable x25519 : bytes -> bytes -> option bytes.
Variable base : bytes -> bytes.
Variable seal : bytes -> bytes -> bytes -> bytes.
Variable unseal : bytes -> bytes -> bytes -> option bytes.
Variable xs : nat -> bytes.
Variable sk : bytes.
Variable E : nat.
Hypothesis box : forall k n m, unseal k n (seal k n m) = Some m.
Hypothesis seal_length : forall k n m, length (seal k n m) = (length m + 16)%nat.
Hypothesis base_length : forall x, length (base x) = 32%nat.
Hypothesis dh_ok : forall e, x25519 (xs (S e)) (base (xs e)) = Some (dh x25519 base xs (S e)) /\
                             x25519 (xs e) (base (xs (S e))) = Some (dh x25519 base xs (S e)).
Hypothesis hk_inj : forall e e', (1 <= e <= E)%nat -> (1 <= e' <= E)%nat ->
  hk hmac sha256 x25519 base xs sk e = hk hmac sha256 x25519 base xs sk e' -> e = e'.
Hypothesis hk_nonzero : forall e, (1 <= e <= E)%nat -> is_zero_key (hk hmac sha256 x25519 base xs sk e) = false.

Notation run := (run hmac sha256 x25519 base seal unseal xs).
Notation fair := (fair hmac sha256 x25519 base seal unseal xs sk).
Notation inv := (inv hmac sha256 x25519 base seal xs sk).
Notation extra half := (extra hmac sha256 x25519 base xs sk half).

Lemma extra_run half evs : forall w, inv w -> fair E w evs -> N.of_nat (length (w_log w) + length evs) < 2 ^ 32 - 1 ->
  (forall who, (i_cur (w_i w who) + length evs + 1 <= E)%nat) ->
  (forall who, extra half who (w_r w who) (w_i w who)) ->
  forall who, extra half who (w_r (fst (run w evs)) who) (w_i (fst (run w evs)) who).
Proof.
  induction evs as [|ev evs IH]; intros w I F Hl HE X; [exact X|].
  assert (HE' : forall who, (i_cur (w_i w who) + 2 <= E)%nat).
  { intros who. specialize (HE who). cbn [length] in HE. lia. }
  assert (Hl0 : N.of_nat (length (w_log w)) < 2 ^ 32 - 2) by (cbn [length] in Hl; lia).
  assert (SO : inv (fst (step hmac sha256 x25519 base seal unseal xs w ev)) /\
    good (snd (step hmac sha256 x25519 base seal unseal xs w ev)) /\
    advanced w (fst (step hmac sha256 x25519 base seal unseal xs w ev))).
  { eapply step_ok; eauto. }
  destruct SO as (A & [_ B] & [C1 C2]).
  pose proof (extra_step hmac sha256 x25519 base seal unseal xs sk half w ev I A B X) as X1.
  cbn [RatchetConvModel.run]. destruct (step _ _ _ _ _ _ _ w ev) as [w1 r] eqn:S. cbn [fst snd] in *.
  destruct F as [_ F]. rewrite S in F. cbn [fst] in F.
  assert (Hl1 : N.of_nat (length (w_log w1) + length evs) < 2 ^ 32 - 1) by (cbn [length] in Hl; lia).
  assert (HE1 : forall who, (i_cur (w_i w1 who) + length evs + 1 <= E)%nat).
  { intros who. specialize (HE who). specialize (C1 who). cbn [length] in HE. lia. }
  specialize (IH w1 A F Hl1 HE1 X1). destruct (run w1 evs) as [w2 rs]. exact IH.
Qed.

Lemma start_extra half who :
  extra half who (w_r (start (start_alice hmac base xs sk (Some (half true)) (Some (half false)))
                             (start_bob hmac xs sk (Some (half true)) (Some (half false)))) who)
                 (w_i (start (start_alice hmac base xs sk (Some (half true)) (Some (half false)))
                             (start_bob hmac xs sk (Some (half true)) (Some (half false)))) who).
Proof.
  destruct who; split; cbn; auto; try discriminate; intros _; repeat split; auto; intros; exfalso; Lia.lia.
Qed.
End Conversation.
