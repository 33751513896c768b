(** C65 and C66: what the key exchange between clients gives its two ends against
    everybody else, the server included. *)
From Coq Require Import List Arith Lia Bool.
Import ListNotations.
From Verif Require Import E2eModel E2eProofs.

Definition reachable (w : world) : Prop := steps start w.
Lemma reach_inv w : reachable w -> inv w.
Proof. intro H. exact (proj2 (steps_inv _ _ inv_start H)). Qed.

(** Exchange [i], begun by [me] with the key [key] and with [k1] as key of the first
    message, has ended with the ratchet secret [root], and [out] was sent since. *)
Definition began (w : world) (i me : nat) (key k1 : term) : Prop :=
  exists r, nth_error (iruns w) i = Some r /\ i_me r = me /\ i_key r = key /\ i_k1 r = k1.
Definition ended (w : world) (i me : nat) (key k1 root : term) (out : list term) : Prop :=
  exists r k3, nth_error (iruns w) i = Some r /\ i_me r = me /\ i_key r = key /\ i_k1 r = k1 /\
    i_end r = Some (k3, out) /\ root = i_root i k3.
(** Answer [j] of [me] to somebody who claimed to be [id] with the key [key]. *)
Definition answered_by (w : world) (j me : nat) (id key root : term) (out : list term) : Prop :=
  exists r, nth_error (rruns w) j = Some r /\ r_me r = me /\ r_id r = id /\ r_key r = key /\ r_out r = out /\ root = r_root j r.

Lemma r2_pub w i r : nth_error (iruns w) i = Some r -> coin_pub w (R2 i) -> bad w (i_key r).
Proof. intros E (p & T & B). cbn in T. rewrite E in T. cbn in T. injection T as <-. exact B. Qed.
Lemma r3_pub w j r : nth_error (rruns w) j = Some r -> coin_pub w (R3 j) -> bad w (r_key r).
Proof. intros E (p & T & B). cbn in T. rewrite E in T. cbn in T. injection T as <-. exact B. Qed.

(** * C65: the initiator *)

(** As long as the private key of the contact is not leaked, nobody else gets the
    ratchet secret, a message key or a secret text of the initiator. *)
Theorem C65_secret : forall w i me b k1 root out, reachable w -> ended w i me (Pk (Long b)) k1 root out -> ~ In b (leaked w) ->
  ~ knows w root /\ (forall s n, ~ knows w (Mk s n root)) /\ (forall n, ~ knows w (Sec (FromI i n))).
Proof.
  intros w i me b k1 root out R (r & k3 & E & Hm & Hk & H1 & D & ->) L. pose proof (reach_inv _ R) as V.
  assert (N : ~ coin_pub w (R2 i)) by (intro H; apply (r2_pub w i r E) in H; rewrite Hk in H; contradiction).
  repeat split.
  - intros K. apply (knows_pub _ _ V) in K. apply N. apply K.
  - intros s n K. apply (knows_pub _ _ V) in K. apply N. apply K.
  - intros n K. apply (knows_pub _ _ V) in K. destruct K as (_ & _ & _ & _ & _ & H & _). now apply N.
Qed.
Print Assumptions C65_secret.

(** Even then it takes the own key as well, if the answer was that of the contact. *)
Theorem C65_both : forall w i me b k1 root out j id a out', reachable w -> ended w i me (Pk (Long b)) k1 root out ->
  answered_by w j b id (Pk (Long a)) root out' -> knows w root -> In b (leaked w) /\ In a (leaked w).
Proof.
  intros w i me b k1 root out j id a out' R (r & k3 & E & Hm & Hk & H1 & D & ->) (r' & E' & _ & _ & Hk' & _ & Q) K. pose proof (reach_inv _ R) as V.
  apply (knows_pub _ _ V) in K. unfold i_root, r_root in Q. injection Q as Q1 Q2. rewrite Q2 in K. cbn [i_root pub] in K. destruct K as [K1 K2].
  apply (r2_pub w i r E) in K1. apply (r3_pub w j r' E') in K2. rewrite Hk in K1. rewrite Hk' in K2. auto.
Qed.
Print Assumptions C65_both.

(** What opens under the keys of the other side was sent by the contact, in exactly
    one answer with the same secret; and the contact has the initiator's record,
    unless others know the key of the first message. *)
Theorem C65_authentic : forall w i me b k1 root out n t, reachable w -> ended w i me (Pk (Long b)) k1 root out -> ~ In b (leaked w) ->
  knows w (Box (Mk true n root) t) ->
  exists j id key out', answered_by w j b id key root out' /\ nth_error out' n = Some t /\
    (~ knows w k1 -> id = record me) /\
    (forall j' me' id' key' out'', answered_by w j' me' id' key' root out'' -> j' = j).
Proof.
  intros w i me b k1 root out n t R (r & k3 & E & Hm & Hk & H1 & D & ->) L K. pose proof (reach_inv _ R) as V. pose proof V as (Ii & Ir & Nt).
  assert (N : ~ coin_pub w (R2 i)) by (intro H; apply (r2_pub w i r E) in H; rewrite Hk in H; contradiction).
  apply (knows_pub _ _ V) in K. cbn -[okbox coin_pub] in K.
  destruct K as [[[K _] _]|[(a & m & F & _)|[(i' & r' & E' & F & _)|[(j & r' & E' & F & _)|[(i' & r' & k3' & o & m & E' & _ & _ & F)|(j & r' & m & E' & M & F)]]]]].
  - contradiction.
  - discriminate.
  - destruct (proj1 (Ii _ _ E')) as [S|[? S]]; rewrite S in F; discriminate.
  - destruct (proj1 (Ir _ _ E')) as [[? S]|[? S]]; rewrite S in F; discriminate.
  - discriminate.
  - injection F as -> F1 F2. destruct (Ir _ _ E') as (_ & (c2 & C & A) & _). assert (c2 = R2 i) by congruence. subst c2.
    destruct A as [A|[A1 A2]]; [contradiction|]. cbn in A1. rewrite E in A1. cbn in A1. injection A1 as A1. assert (r_me r' = b) by congruence.
    exists j, (r_id r'), (r_key r'), (r_out r'). split; [|split; [exact M|split]].
    + exists r'. repeat split; auto. unfold i_root, r_root. now rewrite F1, F2.
    + intros NK. destruct (A2 i r eq_refl E) as [Q|Q]; [|now rewrite Q, Hm]. exfalso. apply NK. rewrite H1 in Q.
      destruct (proj1 (Ii _ _ E)) as [S|[p S]]; rewrite H1 in S; rewrite S in *; [|now apply K_pw]. contradiction.
    + intros j' me' id' key' out'' (r2 & _ & _ & _ & _ & _ & Q). unfold i_root, r_root in Q. rewrite F2 in Q. now injection Q.
Qed.
Print Assumptions C65_authentic.

(** The end of an exchange alone proves nothing: a client takes the answer under any
    key it has ever stored, also under that of an exchange with somebody else. *)
Lemma run1 w e w' w'' : steps w w' -> step w' e w'' -> steps w w''.
Proof. intros H S. induction H as [w|w e0 w1 w2 H0 H1 IH]; econstructor; eauto. constructor. Qed.

Theorem C65_agreement_refuted : exists w i me b k1 root out, reachable w /\ ended w i me (Pk (Long b)) k1 root out /\ k1 = Key (R1 i) /\
  leaked w = [] /\ pws w = [] /\ rruns w = [].
Proof.
  eexists _, 1, 0, 1, _, _, _. split.
  { unfold reachable. eapply run1; [eapply run1; [eapply run1; [apply Steps_nil|]|]|].
    - apply (S_istart _ 0 9 (Pk (Atk 0)) None); [apply K_pk|reflexivity].
    - apply (S_istart _ 0 1 (Pk (Long 1)) None); [apply K_pk|reflexivity].
    - apply (S_ifinish _ 1 (Key (R1 0)) (Box (Key (R1 0)) (Cph (Pk (Long 0)) (Ra 0)))) with (content := Cph (Pk (Long 0)) (Ra 0)) (k3 := Key (Ra 0)) (r := mkIrun 0 1 (Pk (Long 1)) (Key (R1 1)) None); try reflexivity.
      + left. exists 0. eexists. split; [reflexivity|]. split; reflexivity.
      + apply K_seal; [|apply K_encap; [apply K_pk|apply K_coin]]. apply K_key. apply (K_decap _ (Atk 0)); [|apply K_sk]. apply K_net. cbn. auto. }
  cbn. split; [|auto]. eexists _, _. cbn. repeat split.
Qed.
Print Assumptions C65_agreement_refuted.

(** * C66: the one who answers *)

(** As long as the private key that belongs to the record received is not leaked,
    nobody but its owner gets the secret, a message key or a secret text. *)
Theorem C66_secret : forall w j me id a root out, reachable w -> answered_by w j me id (Pk (Long a)) root out -> ~ In a (leaked w) ->
  ~ knows w root /\ (forall s n, ~ knows w (Mk s n root)) /\ (forall n, ~ knows w (Sec (FromR j n))).
Proof.
  intros w j me id a root out R (r & E & Hm & Hi & Hk & Ho & ->) L. pose proof (reach_inv _ R) as V.
  assert (N : ~ coin_pub w (R3 j)) by (intro H; apply (r3_pub w j r E) in H; rewrite Hk in H; contradiction).
  repeat split.
  - intros K. apply (knows_pub _ _ V) in K. apply N. apply K.
  - intros s n K. apply (knows_pub _ _ V) in K. apply N. apply K.
  - intros n K. apply (knows_pub _ _ V) in K. destruct K as (_ & _ & _ & H). now apply N.
Qed.
Print Assumptions C66_secret.

(** What opens under the keys of the other side was sent by the owner of that key, in
    exactly one exchange with the same secret.  If the owner meant a contact whose
    private key is not leaked, then that is the one who answered; and the record is
    the owner's, unless others know the key of the first message. *)
Theorem C66_authentic : forall w j me id a root out n t, reachable w -> answered_by w j me id (Pk (Long a)) root out -> ~ In a (leaked w) ->
  knows w (Box (Mk false n root) t) ->
  exists i key k1 out', ended w i a key k1 root out' /\ nth_error out' n = Some t /\
    (forall b, key = Pk (Long b) -> ~ In b (leaked w) -> b = me /\ (~ knows w k1 -> id = record a)) /\
    (forall i' me' key' k1' out'', ended w i' me' key' k1' root out'' -> i' = i).
Proof.
  intros w j me id a root out n t R (r & E & Hm & Hi & Hk & Ho & ->) L K. pose proof (reach_inv _ R) as V. pose proof V as (Ii & Ir & Nt).
  assert (N : ~ coin_pub w (R3 j)) by (intro H; apply (r3_pub w j r E) in H; rewrite Hk in H; contradiction).
  apply (knows_pub _ _ V) in K. cbn -[okbox coin_pub] in K.
  destruct K as [[[_ K] _]|[(x & m & F & _)|[(i & r' & E' & F & _)|[(j' & r' & E' & F & _)|[(i & r' & k3 & o & m & E' & D & M & F)|(j' & r' & m & E' & M & F)]]]]].
  - contradiction.
  - discriminate.
  - destruct (proj1 (Ii _ _ E')) as [S|[? S]]; rewrite S in F; discriminate.
  - destruct (proj1 (Ir _ _ E')) as [[? S]|[? S]]; rewrite S in F; discriminate.
  - injection F as -> F1 F2. destruct (Ii _ _ E') as (S & H). destruct (H _ _ D) as [(c3 & C & A) _]. assert (c3 = R3 j) by congruence. subst c3.
    destruct A as [A|A]; [contradiction|]. cbn in A. rewrite E in A. cbn in A. injection A as A. assert (i_me r' = a) by congruence.
    exists i, (i_key r'), (i_k1 r'), o. split; [|split; [exact M|split]].
    + exists r', k3. repeat split; auto. unfold i_root, r_root. now rewrite F1, F2.
    + intros b Hb Lb. destruct (Ir _ _ E) as (_ & (c2 & C2 & A') & _). assert (c2 = R2 i) by congruence. subst c2.
      destruct A' as [A'|[A1 A2]]; [apply (r2_pub w i r' E') in A'; rewrite Hb in A'; contradiction|].
      cbn in A1. rewrite E' in A1. cbn in A1. injection A1 as A1. split; [congruence|].
      intros NK. destruct (A2 i r' eq_refl E') as [Q|Q]; [|congruence]. exfalso. apply NK.
      destruct S as [S|[p S]]; rewrite S in *; [|now apply K_pw]. destruct Q as (p & T & B). cbn in T. rewrite E' in T. cbn in T. injection T as <-. rewrite Hb in B. contradiction.
    + intros i' me' key' k1' out'' (r2 & k3' & _ & _ & _ & _ & _ & Q). unfold i_root, r_root in Q. rewrite F1 in Q. now injection Q.
  - discriminate.
Qed.
Print Assumptions C66_authentic.

(** Answering proves nothing about the other side: the record may be that of a user
    who never began an exchange. *)
Theorem C66_claimed_refuted : exists w j me a root out, reachable w /\ answered_by w j me (record a) (Pk (Long a)) root out /\ iruns w = [] /\
  leaked w = [] /\ pws w = [].
Proof.
  eexists _, 0, 1, 0, _, _. split.
  { unfold reachable. eapply run1; [apply Steps_nil|].
    apply (S_rdir _ 1 (Cph (Pk (Long 1)) (Ra 0)) (Box (Key (Ra 0)) (Pair (record 0) (Cph (Pk (Long 1)) (Ra 1))))) with (k := Key (Ra 0)) (content := Pair (record 0) (Cph (Pk (Long 1)) (Ra 1))); try reflexivity.
    - apply K_encap; [apply K_pk|apply K_coin].
    - apply K_seal; [apply K_key, K_coin|]. apply K_pair; [apply K_pair; [apply K_nm|apply K_pk]|apply K_encap; [apply K_pk|apply K_coin]]. }
  cbn. split; [|auto]. eexists. cbn. repeat split.
Qed.
Print Assumptions C66_claimed_refuted.

(** A contact who lets its exchange with a user be answered by a third makes the third
    take for the user's what the user sends to the contact, with one secret between
    the user and the third that the contact does not have. *)
Theorem C66_misbound_refuted : exists w i j a m b root out out', reachable w /\ leaked w = [] /\ pws w = [] /\
  ended w i a (Pk (Atk m)) (Key (R1 i)) root out /\ answered_by w j b (record a) (Pk (Long a)) root out' /\ a <> b /\
  nth_error out 0 = Some (Sec (FromI i 0)) /\ knows w (Box (Mk false 0 root) (Sec (FromI i 0))) /\ ~ knows w root.
Proof.
  assert (H : exists w, reachable w /\ leaked w = [] /\ pws w = [] /\
    ended w 0 0 (Pk (Atk 0)) (Key (R1 0)) (Root (Key (R2 0)) (Key (R3 0))) [Sec (FromI 0 0)] /\
    answered_by w 0 1 (record 0) (Pk (Long 0)) (Root (Key (R2 0)) (Key (R3 0))) [] /\
    knows w (Box (Mk false 0 (Root (Key (R2 0)) (Key (R3 0)))) (Sec (FromI 0 0)))).
  { eexists. split.
    { unfold reachable. eapply run1; [eapply run1; [eapply run1; [eapply run1; [apply Steps_nil|]|]|]|].
      - apply (S_istart _ 0 9 (Pk (Atk 0)) None); [apply K_pk|reflexivity].
      - apply (S_rdir _ 1 (Cph (Pk (Long 1)) (Ra 0)) (Box (Key (Ra 0)) (Pair (record 0) (Cph (Pk (Long 1)) (R2 0))))) with (k := Key (Ra 0)) (content := Pair (record 0) (Cph (Pk (Long 1)) (R2 0))); try reflexivity.
        + apply K_encap; [apply K_pk|apply K_coin].
        + apply K_seal; [apply K_key, K_coin|]. apply K_pair; [apply K_pair; [apply K_nm|apply K_pk]|]. apply K_encap; [apply K_pk|].
          apply (K_decap _ (Atk 0)); [|apply K_sk]. apply (K_snd _ (record 0)). apply (K_open _ (Key (R1 0))); [apply K_net; cbn; auto|].
          apply K_key. apply (K_decap _ (Atk 0)); [|apply K_sk]. apply K_net. cbn. auto.
      - apply (S_ifinish _ 0 (Key (R1 0)) (Box (Key (R1 0)) (Cph (Pk (Long 0)) (R3 0)))) with (content := Cph (Pk (Long 0)) (R3 0)) (k3 := Key (R3 0)) (r := mkIrun 0 9 (Pk (Atk 0)) (Key (R1 0)) None); try reflexivity.
        + left. exists 0. eexists. split; [reflexivity|]. split; reflexivity.
        + apply K_seal.
          * apply K_key. apply (K_decap _ (Atk 0)); [|apply K_sk]. apply K_net. cbn. auto.
          * apply (K_open _ (Key (Ra 0))); [apply K_net; cbn; auto|apply K_key, K_coin].
      - apply (S_isecret _ 0) with (k3 := Key (R3 0)) (out := []) (r := mkIrun 0 9 (Pk (Atk 0)) (Key (R1 0)) (Some (Key (R3 0), []))); reflexivity. }
    cbn. split; [reflexivity|]. split; [reflexivity|]. split; [eexists _, _; cbn; repeat split|]. split; [eexists; cbn; repeat split|].
    apply K_net. cbn. auto. }
  destruct H as (w & R & L & P & E & A & K). exists w, 0, 0, 0, 0, 1, (Root (Key (R2 0)) (Key (R3 0))), [Sec (FromI 0 0)], [].
  repeat split; auto. apply (C66_secret w 0 1 (record 0) 0 _ [] R A). now rewrite L.
Qed.
Print Assumptions C66_misbound_refuted.

(** An undisturbed exchange, with and without a password, and a message each way. *)
Definition both_ends (w : world) (k1 : term) : Prop :=
  leaked w = [] /\ pws w = [] /\
  ended w 0 0 (Pk (Long 1)) k1 (Root (Key (R2 0)) (Key (R3 0))) [Sec (FromI 0 0)] /\
  answered_by w 0 1 (record 0) (Pk (Long 0)) (Root (Key (R2 0)) (Key (R3 0))) [Sec (FromR 0 0)] /\
  knows w (Box (Mk true 0 (Root (Key (R2 0)) (Key (R3 0)))) (Sec (FromR 0 0))) /\
  knows w (Box (Mk false 0 (Root (Key (R2 0)) (Key (R3 0)))) (Sec (FromI 0 0))).

Example by_directory : exists w, reachable w /\ both_ends w (Key (R1 0)).
Proof.
  eexists. split.
  { unfold reachable. eapply run1; [eapply run1; [eapply run1; [eapply run1; [eapply run1; [apply Steps_nil|]|]|]|]|].
    - apply (S_istart _ 0 1 (Pk (Long 1)) None); [apply K_pk|reflexivity].
    - apply (S_rdir _ 1 (Cph (Pk (Long 1)) (R1 0)) (Box (Key (R1 0)) (Pair (record 0) (Cph (Pk (Long 1)) (R2 0))))) with (k := Key (R1 0)) (content := Pair (record 0) (Cph (Pk (Long 1)) (R2 0)));
        [apply K_net; cbn; auto|apply K_net; cbn; auto|reflexivity..].
    - apply (S_ifinish _ 0 (Key (R1 0)) (Box (Key (R1 0)) (Cph (Pk (Long 0)) (R3 0)))) with (content := Cph (Pk (Long 0)) (R3 0)) (k3 := Key (R3 0)) (r := mkIrun 0 1 (Pk (Long 1)) (Key (R1 0)) None);
        [reflexivity|reflexivity| |apply K_net; cbn; auto|reflexivity|reflexivity].
      left. exists 0. eexists. split; [reflexivity|]. split; reflexivity.
    - apply (S_isecret _ 0) with (k3 := Key (R3 0)) (out := []) (r := mkIrun 0 1 (Pk (Long 1)) (Key (R1 0)) (Some (Key (R3 0), []))); reflexivity.
    - apply (S_rsecret _ 0) with (r := mkRrun 1 (Key (R1 0)) (record 0) (Pk (Long 0)) (Key (R2 0)) []); reflexivity. }
  unfold both_ends. cbn. split; [reflexivity|]. split; [reflexivity|]. split; [eexists _, _; cbn; repeat split|]. split; [eexists; cbn; repeat split|].
  split; apply K_net; cbn; auto 10.
Qed.

Example by_password : exists w, reachable w /\ both_ends w (Pw 7).
Proof.
  eexists. split.
  { unfold reachable. eapply run1; [eapply run1; [eapply run1; [eapply run1; [eapply run1; [eapply run1; [apply Steps_nil|]|]|]|]|]|].
    - apply (S_share _ 1 7).
    - apply (S_istart _ 0 1 (Pk (Long 1)) (Some 7)); [apply K_pk|reflexivity].
    - apply (S_rpass _ 1 (Pw 7) (Box (Pw 7) (Pair (record 0) (Cph (Pk (Long 1)) (R2 0))))) with (content := Pair (record 0) (Cph (Pk (Long 1)) (R2 0)));
        [|apply K_net; cbn; auto|reflexivity..].
      right. exists 7. cbn. auto.
    - apply (S_ifinish _ 0 (Pw 7) (Box (Pw 7) (Cph (Pk (Long 0)) (R3 0)))) with (content := Cph (Pk (Long 0)) (R3 0)) (k3 := Key (R3 0)) (r := mkIrun 0 1 (Pk (Long 1)) (Pw 7) None);
        [reflexivity|reflexivity| |apply K_net; cbn; auto|reflexivity|reflexivity].
      left. exists 0. eexists. split; [reflexivity|]. split; reflexivity.
    - apply (S_isecret _ 0) with (k3 := Key (R3 0)) (out := []) (r := mkIrun 0 1 (Pk (Long 1)) (Pw 7) (Some (Key (R3 0), []))); reflexivity.
    - apply (S_rsecret _ 0) with (r := mkRrun 1 (Pw 7) (record 0) (Pk (Long 0)) (Key (R2 0)) []); reflexivity. }
  unfold both_ends. cbn. split; [reflexivity|]. split; [reflexivity|]. split; [eexists _, _; cbn; repeat split|]. split; [eexists; cbn; repeat split|].
  split; apply K_net; cbn; auto 10.
Qed.
