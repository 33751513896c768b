(** Conversations from the sender's client through the server to the receiver's client
    (C71; model in WholeModel.v). *)
From Verif Require Import Base XdrModel RpcModel RpcProofs MailModel MailProofs MailKept WholeMail.
From Verif Require Import RatchetModel RatchetConvModel RatchetConvProofs SessionProps RatchetProps RatchetCases CrashModel CrashProofs CrashProps CrashCases.
From Verif Require Import WholeRatchet WholeModel WholeProofs.
Local Open Scope N_scope.

(** The assumptions about the cryptography: those of C45, and that a box opens only with
    the key that sealed it, and that message keys are never the same. *)
Definition crypto hmac sha256 x25519 base seal unseal xs sk E a b t0 t1 : Prop :=
  setting hmac sha256 x25519 base seal unseal xs sk E a b t0 t1 /\ key_law seal unseal /\ keys_differ hmac sha256 x25519 base xs sk E.
(** A bound on the length of the conversation: fewer operations than 2^20, and two more
    chains than there were operations have different keys. *)
Definition bounded (E : nat) (x : net) : Prop := N.of_nat (length (n_done x)) < 2 ^ 20 /\ (length (n_done x) + 3 <= E)%nat.

Section Laws.
Variable hmac : bytes -> bytes -> bytes.
Variable sha256 : bytes -> bytes.
Variable x25519 : bytes -> bytes -> option bytes.
Variable base : bytes -> bytes.
Variable seal : bytes -> bytes -> bytes -> bytes.
Variable unseal : bytes -> bytes -> bytes -> option bytes.
Variable xs : nat -> bytes.
Variable sk : bytes.
Variable E : nat.
Variables a b : ratchet.
Variables t0 t1 : Z.
Variable id : bool -> bytes.
Hypothesis CR : crypto hmac sha256 x25519 base seal unseal xs sk E a b t0 t1.
Notation nruns := (nruns hmac sha256 x25519 base seal unseal xs a b t0 t1 id).

Lemma wh x : nruns x -> bounded E x -> whole hmac sha256 x25519 base seal unseal xs sk a b t0 t1 id x.
Proof. destruct CR as (ST & KL & KD). intros R B. apply (whole_runs _ _ _ _ _ _ _ _ E); auto. Qed.

Lemma said_nodup x who : nruns x -> bounded E x -> NoDup (map snd (n_said x who)).
Proof. intros R B. pose proof (pt_nodup _ _ _ _ _ (wh_path _ _ _ _ _ _ _ _ _ _ _ _ _ _ (wh x R B) (negb who))) as N. now rewrite Bool.negb_involutive in N. Qed.

(** Every message that a client handles is one that the other handed to its connection,
    with the same text, and it handles none twice; however the connections break, the
    clients die and the server is started again. *)
Theorem C71_once x who : nruns x -> bounded E x ->
  NoDup (map snd (n_said x (negb who))) /\ NoDup (map snd (n_heard x who)) /\ forall y, In y (n_heard x who) -> In y (n_said x (negb who)).
Proof.
  intros R B. pose proof (wh x R B) as W. split; [now apply said_nodup|]. split.
  - exact (NoDup_app_l _ _ (wh_once _ _ _ _ _ _ _ _ _ _ _ _ _ _ W who)).
  - apply (wh_heard _ _ _ _ _ _ _ _ _ _ _ _ _ _ W who).
Qed.

(** As long as at most 80 were lost on the way, messages are handled in the order in
    which they were handed to the connection. *)
Theorem C71_order x who : nruns x -> bounded E x -> (length (n_lost x (negb who)) <= 80)%nat -> sub (n_heard x who) (n_said x (negb who)).
Proof.
  intros R B L. pose proof (wh x R B) as W. destruct (wh_ord _ _ _ _ _ _ _ _ _ _ _ _ _ _ W who L) as [_ _ _ (Ls & L1 & L2 & L3)].
  destruct (wh_path _ _ _ _ _ _ _ _ _ _ _ _ _ _ W who) as [P1 P2 P3 P4 P5 P6 P7].
  apply (sub_unmap snd); auto; [apply (wh_heard _ _ _ _ _ _ _ _ _ _ _ _ _ _ W who)|].
  eapply sub_trans; [|exact P3]. eapply sub_trans; [|apply sub_app_l]. rewrite <- L2.
  assert (EL : filter (fun x : bytes * DiskMessage => from_him (id (negb who)) (snd x)) Ls = Ls).
  { clear - L3. induction Ls as [|[n d] l IH]; [reflexivity|]. cbn. destruct (L3 n d (or_introl eq_refl)) as [-> _]. f_equal. apply IH. intros n' d' X. apply L3. now right. }
  rewrite <- EL. exact (hp_sub _ _ _ L1).
Qed.

(** Where every message is: on the way to the server, with the server and not yet on
    its disk, in a file in the mailbox, handled, or it was lost on the way, or the client
    died between saving the ratchet and handling it. *)
Theorem C71_kept x who msg ct : nruns x -> bounded E x -> (length (n_lost x who) <= 80)%nat -> In (msg, ct) (n_said x who) ->
  In ct (n_fly x who) \/
  (exists n d, In (n, d) (m_pending (n_box x (negb who))) /\ DiskMessage_From d = id who /\ DiskMessage_Payload d = ct) \/
  (exists n d, mget (m_disk (n_box x (negb who))) n = Some (enc DiskMessage_codec d) /\ DiskMessage_From d = id who /\ DiskMessage_Payload d = ct) \/
  In (msg, ct) (n_heard x (negb who)) \/ In ct (n_lost x who) \/ In ct (n_gone x (negb who)).
Proof.
  intros R B L I. pose proof (wh x R B) as W. destruct (wh_path _ _ _ _ _ _ _ _ _ _ _ _ _ _ W (negb who)) as [P1 P2 P3 P4 P5 P6 P7].
  pose proof (wh_ord _ _ _ _ _ _ _ _ _ _ _ _ _ _ W (negb who)) as O. rewrite Bool.negb_involutive in *. specialize (O L).
  assert (F : forall d, from_him (id who) d = true -> DiskMessage_From d = id who).
  { intros d X. unfold from_him in X. apply andb_prop in X as [X _]. now apply (proj1 (eqb_eq _ _)) in X. }
  destruct (P5 ct) as [X|[X|[X|X]]]; auto.
  - apply in_map_iff. now exists (msg, ct).
  - tauto.
  - right. left. apply hp_In in X as (n & d & X1 & X2 & X3). exists n, d. auto.
  - apply hp_In in X as (n & d & X1 & X2 & X3). destruct (kept_acked_reach careful _ ltac:(discriminate) P1 n d X1) as [Y|(q & Y1 & Y2 & Y3)].
    + right. right. left. exists n, d. auto.
    + right. right. right. subst d. pose proof (gd_acked _ _ (o_good _ _ _ _ _ O) q Y1 X2) as T. rewrite X3 in T.
      apply (wh_taken _ _ _ _ _ _ _ _ _ _ _ _ _ _ W) in T as [T|T]; auto. left. apply in_map_iff in T as ([m' c] & Z1 & Z2). cbn in Z1. subst c.
      pose proof (wh_heard _ _ _ _ _ _ _ _ _ _ _ _ _ _ W _ _ Z2) as Z3. rewrite Bool.negb_involutive in Z3.
      assert (m' = msg); [|now subst]. pose proof (said_nodup x who R B) as ND. clear - ND I Z3.
      induction (n_said x who) as [|[m0 c0] l IH]; [destruct I|]. cbn in ND. inversion ND as [|? ? N1 N2]; subst.
      destruct I as [I|I], Z3 as [Z|Z]; try congruence; auto; exfalso; apply N1.
      * injection I as -> ->. apply in_map_iff. now exists (m', ct).
      * injection Z as -> ->. apply in_map_iff. now exists (msg, ct).
Qed.

Lemma lost_not_heard x who ct : nruns x -> bounded E x -> In ct (n_lost x (negb who)) \/ In ct (n_gone x who) ->
  ~ In ct (map snd (n_heard x who)).
Proof.
  intros R B [H|H] I; pose proof (wh x R B) as W.
  - destruct (wh_path _ _ _ _ _ _ _ _ _ _ _ _ _ _ W who) as [P1 P2 P3 P4 P5 P6 P7]. destruct (P7 ct H) as [_ N]. apply N.
    assert (T : taken (n_done x) who ct) by (apply (wh_taken _ _ _ _ _ _ _ _ _ _ _ _ _ _ W); auto).
    destruct (wh_got _ _ _ _ _ _ _ _ _ _ _ _ _ _ W _ _ T) as (q & Q1 & Q2 & Q3).
    destruct (if_got _ (inv_flow_reach careful _ ltac:(discriminate) P1) q Q1) as [Z|Z]; [|rewrite P2 in Z; destruct Z].
    unfold within. apply in_or_app. left. apply hp_In. exists (p_name q), (p_msg q). auto.
  - exact (NoDup_app_not _ _ ct (wh_once _ _ _ _ _ _ _ _ _ _ _ _ _ _ W who) I H).
Qed.
Lemma set_grows {A} (f : bool -> list A) k v who ct : In ct (f who) -> In ct (set f k (f k ++ v) who).
Proof. intros H. destruct (Bool.bool_dec who k) as [->|N]; [rewrite set_eq; apply in_or_app; auto|now rewrite set_other]. Qed.
Lemma lost_later x x' : nlater hmac sha256 x25519 base seal unseal xs a b t0 t1 id x x' -> nruns x ->
  nruns x' /\ forall who ct, (In ct (n_lost x who) -> In ct (n_lost x' who)) /\ (In ct (n_gone x who) -> In ct (n_gone x' who)).
Proof.
  induction 1 as [|y z L IH St]; intros R; [auto|]. destruct (IH R) as [R' M]. split; [eapply nruns_step; eauto|].
  intros who ct. destruct (M who ct) as [M1 M2]. clear - M1 M2 St. destruct St; cbn [n_lost n_gone]; auto; split; auto; intros HH.
  all: try (apply set_grows; auto). destruct on; auto. apply set_grows; auto.
Qed.

(** What was lost, or whose handling a dying client missed, is never handled, whatever
    happens later. *)
Theorem C71_lost x x' who ct : nruns x -> nlater hmac sha256 x25519 base seal unseal xs a b t0 t1 id x x' -> bounded E x' ->
  In ct (n_lost x (negb who)) \/ In ct (n_gone x who) -> ~ In ct (map snd (n_heard x' who)).
Proof.
  intros R L B H. destruct (lost_later _ _ L R) as [R' M]. apply lost_not_heard; auto.
  destruct H as [H|H]; [left|right]; now apply M.
Qed.

(** When the server and the receiver have come to rest (as in C22_drained), and nothing
    was lost, the receiver has handled exactly what the sender sent, in this order. *)
Theorem C71_all x who s : nruns x -> bounded E x -> n_lost x who = [] -> n_gone x (negb who) = [] ->
  n_fly x who = [] -> (forall y, In y (m_pending (n_box x (negb who))) -> DiskMessage_From (snd y) <> id who) ->
  m_sess (n_box x (negb who)) = Some s -> (forall act, internal act -> exec careful (n_box x (negb who)) act = None) ->
  s_away s = false -> ~ In Bad (s_notes s) -> s_wdead s = false -> (s_worker s = WStart -> s_work s = false) ->
  n_heard x (negb who) = n_said x who.
Proof.
  intros R B Lo Go Fl Pe S Q Aw NB Wd St. pose proof (wh x R B) as W.
  pose proof (pt_part _ _ _ _ _ (wh_path _ _ _ _ _ _ _ _ _ _ _ _ _ _ W (negb who))) as P0.
  destruct (wh_path _ _ _ _ _ _ _ _ _ _ _ _ _ _ W (negb who)) as [P1 _ _ _ _ _ _].
  assert (Em : forall n, mget (m_disk (n_box x (negb who))) n <> None -> False).
  { intros n X. apply (quiet_empty careful _ s) in X; auto; [|discriminate]. rewrite P0 in X. destruct X. }
  assert (L : (length (n_lost x who) <= 80)%nat) by (rewrite Lo; cbn; lia).
  pose proof (C71_order x (negb who) R B) as O. rewrite Bool.negb_involutive in O. specialize (O L).
  apply sub_full; auto. rewrite <- (map_length snd (n_said x who)), <- (map_length snd (n_heard x (negb who))).
  apply NoDup_incl_length; [now apply said_nodup|]. intros ct X. apply in_map_iff in X as ([m c] & <- & X). cbn [snd].
  destruct (C71_kept x who m c R B L X) as [Y|[(n & d & Y1 & Y2 & _)|[(n & d & Y1 & _)|[Y|[Y|Y]]]]].
  - rewrite Fl in Y. destruct Y.
  - destruct (Pe _ Y1 Y2).
  - destruct (Em n). congruence.
  - apply in_map_iff. now exists (m, c).
  - rewrite Lo in Y. destruct Y.
  - rewrite Go in Y. destruct Y.
Qed.
End Laws.
Print Assumptions C71_once.
Print Assumptions C71_order.
Print Assumptions C71_kept.
Print Assumptions C71_lost.
Print Assumptions C71_all.

(** * Cases *)

Lemma q_crypto : crypto q_hmac q_sha toy_x25519 toy_base toy_seal toy_unseal q_xs q_sk 11 q_a q_b 0 1000000000.
Proof.
  split; [exact q_setting|]. split; [exact q_key_law|]. intros e i e' i' He He' Q.
  destruct (count_q e i He) as [X1 X2]. destruct (count_q e' i' He') as [Y1 Y2]. rewrite Q in *. split; lia.
Qed.
Definition q_id (who : bool) : bytes := if who then repeat 1 32 else repeat 2 32.
Notation q_nruns := (nruns q_hmac q_sha toy_x25519 toy_base toy_seal toy_unseal q_xs q_a q_b 0 1000000000 q_id).

(** What the mailbox does, one action after the other. *)
Definition ownb (running : bool) (x : MailModel.action) : bool :=
  match x with
  | MailModel.AReceive | MailModel.ACheck _ _ | MailModel.ACrash (Some _) | MailModel.AFull _ (Some _) => false
  | MailModel.AAck _ | MailModel.AOnline => running
  | _ => true
  end.
Fixpoint posts (who : bool) (x : net) (l : list MailModel.action) : option net :=
  match l with
  | [] => Some x
  | act :: l' =>
      match (if ownb (n_up x who) act then exec careful (n_box x who) act else None) with
      | Some m' => posts who (mkNet (n_done x) (n_dir x) (n_up x) (n_fly x) (set (n_box x) who m') (n_said x) (n_heard x)
          (set (n_lost x) (negb who) (n_lost x (negb who) ++ vanished (q_id (negb who)) (n_box x who) m')) (n_gone x)) l'
      | None => None
      end
  end.
Lemma posts_runs who l : forall x x', q_nruns x -> posts who x l = Some x' -> q_nruns x'.
Proof.
  induction l as [|act l IH]; intros x x' R P; cbn [posts] in P.
  - now injection P as <-.
  - destruct (ownb (n_up x who) act) eqn:O; [|discriminate]. destruct (exec careful (n_box x who) act) as [m'|] eqn:X; [|discriminate].
    refine (IH _ _ _ P). eapply nruns_step; [exact R|]. apply (N_post _ _ _ _ _ _ _ _ _ _ _ _ _ who act m'); auto.
    destruct act; cbn in O |- *; try discriminate; auto; match goal with |- match ?c with _ => _ end => destruct c; [discriminate|exact I] end.
Qed.

Definition got (o : option mail) : mail := match o with Some m => m | None => MailModel.empty_mail end.
Definition goes (o : option net) (x : net) : net := match o with Some x' => x' | None => x end.
Lemma goes_runs who x l : q_nruns x -> (if posts who x l then true else false) = true -> q_nruns (goes (posts who x l) x).
Proof. intros R N. destruct (posts who x l) as [x'|] eqn:P; [|discriminate]. exact (posts_runs _ _ _ _ R P). Qed.

(** Bob says "hi"; it reaches the server and its disk, and is sent to alice. *)
Definition X0 : net := mkNet [] D0 (fun _ => true) (fun _ => []) (fun _ => MailModel.empty_mail) (fun _ => []) (fun _ => []) (fun _ => []) (fun _ => []).
Definition X1 : net := mkNet [Send false (nn 1) (nn 2) (bs "hi")] (set D0 false d_b1) (fun _ => true) (set (fun _ => []) false [hi]) (n_box X0)
  (set (fun _ => []) false [(bs "hi", hi)]) (fun _ => []) (fun _ => []) (fun _ => []).
Definition m_hi : DiskMessage := mkDiskMessage (q_id false) 5%Z hi false.
Definition X2 : net := mkNet (n_done X1) (n_dir X1) (n_up X1) (set (n_fly X1) false [])
  (set (n_box X1) true (got (exec careful MailModel.empty_mail (MailModel.ACheck [49] m_hi)))) (n_said X1) (n_heard X1) (n_lost X1) (n_gone X1).
Definition offer : list MailModel.action := [AWrite 0; AOnline; AWorker; AWorker; AWorker; AWorker; AWorker; AWorker; ANotify; ANotify; ANotify; AWriter].
Definition X3 : net := goes (posts true X2 offer) X2.
(** Alice reads it, acknowledges it, and the server deletes it. *)
Definition d_a3 : dir := mset (D0 true) ratchet_file (image 7 (fst q2)).
Definition w_hi : pushed := mkPushed 0 [49] m_hi.
Notation p_hi := (DiskMessage_Payload (p_msg w_hi)).
Definition X4 : net := mkNet (n_done X3 ++ [Recv true same_order 7 p_hi]) (set (n_dir X3) true d_a3) (n_up X3) (n_fly X3)
  (set (n_box X3) true (got (exec careful (n_box X3 true) MailModel.AReceive))) (n_said X3)
  (set (n_heard X3) true (n_heard X3 true ++ [(bs "hi", p_hi)])) (n_lost X3) (n_gone X3).
Definition finish : list MailModel.action := [AAck 0; AHandler; AHandler; AHandler; AHandler; AWorker].
Definition X5 : net := goes (posts true X4 finish) X4.

Lemma X0_runs : q_nruns X0.
Proof. apply (nruns_start _ _ _ _ _ _ _ _ _ _ _ _ D0 5); [lia|]. intros [|]; reflexivity. Qed.
Lemma X1_runs : q_nruns X1.
Proof.
  refine (nruns_step _ _ _ _ _ _ _ _ _ _ _ _ _ _ X0_runs (N_say _ _ _ _ _ _ _ _ _ _ _ _ X0 false (q_xs 1) (nn 1) (nn 2) (bs "hi") 6 d_b1 hi _ _ _ _ _ _ _));
    try reflexivity; [lia|intros w y []|].
  apply (Tx_sent _ _ _ _ _ _ _ _ _ _ _ q_sk (disk (D0 false)) (fst q1)); [vm_compute; reflexivity|vm_compute; reflexivity|constructor].
Qed.
Lemma X2_runs : q_nruns X2.
Proof.
  refine (nruns_step _ _ _ _ _ _ _ _ _ _ _ _ _ _ X1_runs (N_arrive _ _ _ _ _ _ _ _ _ _ _ _ X1 false hi [] [49] 5%Z _ _ _ _ _)).
  - reflexivity.
  - intros y [].
  - vm_compute. repeat split; try lia; try discriminate; repeat constructor.
  - vm_compute. reflexivity.
Qed.
Lemma X3_runs : q_nruns X3.
Proof. apply goes_runs; [exact X2_runs|]. vm_compute. reflexivity. Qed.

Lemma wire3 : exists s, m_sess (n_box X3 true) = Some s /\ s_wire s = [w_hi].
Proof. eexists. split; vm_compute; reflexivity. Qed.
Lemma recv3 : exec careful (n_box X3 true) MailModel.AReceive = Some (got (exec careful (n_box X3 true) MailModel.AReceive)).
Proof. vm_compute. reflexivity. Qed.
Lemma X4_runs : q_nruns X4.
Proof.
  destruct wire3 as (s & S1 & S2).
  assert (D : n_dir X3 true = D0 true) by (vm_compute; reflexivity).
  assert (H : q_receive same_order p_hi 7 (n_dir X3 true) d_a3 (Some (bs "hi")) true).
  { rewrite D. apply (Rx_handled _ _ _ _ _ _ _ _ q_sk (disk (D0 true)) (fst q2) (bs "hi")); [vm_compute; reflexivity|vm_compute; reflexivity|constructor]. }
  assert (U : n_up X3 true = true) by (vm_compute; reflexivity).
  assert (F : from_him (q_id false) (p_msg w_hi) = true) by reflexivity.
  assert (T : (0 <= 7 <= 1000000000)%Z) by lia.
  pose proof (N_hear q_hmac q_sha toy_x25519 toy_base toy_seal toy_unseal q_xs q_a q_b 0 1000000000 q_id X3 true s w_hi [] _ same_order 7%Z d_a3 (bs "hi")
    U T (fun l => Permutation_refl l) S1 S2 F recv3) as St.
  specialize (St H). exact (nruns_step _ _ _ _ _ _ _ _ _ _ _ _ _ _ X3_runs St).
Qed.
Lemma X5_runs : q_nruns X5.
Proof. apply goes_runs; [exact X4_runs|]. vm_compute. reflexivity. Qed.
Example C71_all_case : n_said X5 false = [(bs "hi", hi)] /\ n_heard X5 true = n_said X5 false.
Proof.
  split; [vm_compute; reflexivity|].
  assert (S : exists s, m_sess (n_box X5 true) = Some s /\ s_away s = false /\ ~ In Bad (s_notes s) /\ s_wdead s = false /\ s_worker s <> WStart).
  { eexists. split; [vm_compute; reflexivity|]. vm_compute. repeat split; try discriminate. intuition discriminate. }
  destruct S as (s & S1 & S2 & S3 & S4 & S5).
  refine (C71_all _ _ _ _ _ _ _ _ _ _ _ _ _ _ q_crypto X5 false s X5_runs _ _ _ _ _ S1 _ S2 S3 S4 (fun H => match S5 H with end)).
  - split; [vm_compute; reflexivity|vm_compute; lia].
  - vm_compute. reflexivity.
  - vm_compute. reflexivity.
  - vm_compute. reflexivity.
  - vm_compute. intros y [].
  - intros act H. destruct act; try destruct H; vm_compute; reflexivity.
Qed.

(** Bob says "yo", and the connection breaks before it reaches the server; then "ok",
    which alice reads.  "yo" is lost, and neither client nor server tells. *)
Definition q5 := q_encrypt (disk d_b1) (q_xs 1) (nn 3) (nn 4) (bs "yo").
Definition yo' : bytes := out q5.
Definition d_b3 : dir := mset d_b1 ratchet_file (image 8 (fst q5)).
Definition X6 : net := mkNet (n_done X5 ++ [Send false (nn 3) (nn 4) (bs "yo")]) (set (n_dir X5) false d_b3) (n_up X5) (set (n_fly X5) false [yo'])
  (n_box X5) (set (n_said X5) false (n_said X5 false ++ [(bs "yo", yo')])) (n_heard X5) (n_lost X5) (n_gone X5).
Definition X7 : net := mkNet (n_done X6) (n_dir X6) (n_up X6) (set (n_fly X6) false []) (n_box X6) (n_said X6) (n_heard X6)
  (set (n_lost X6) false [yo']) (n_gone X6).
Definition q6 := q_encrypt (disk d_b3) (q_xs 1) (nn 5) (nn 6) (bs "ok").
Definition ok : bytes := out q6.
Definition d_b4 : dir := mset d_b3 ratchet_file (image 9 (fst q6)).
Definition X8 : net := mkNet (n_done X7 ++ [Send false (nn 5) (nn 6) (bs "ok")]) (set (n_dir X7) false d_b4) (n_up X7) (set (n_fly X7) false [ok])
  (n_box X7) (set (n_said X7) false (n_said X7 false ++ [(bs "ok", ok)])) (n_heard X7) (n_lost X7) (n_gone X7).
Definition m_ok : DiskMessage := mkDiskMessage (q_id false) 6%Z ok false.
Definition X9 : net := mkNet (n_done X8) (n_dir X8) (n_up X8) (set (n_fly X8) false [])
  (set (n_box X8) true (got (exec careful (n_box X8 true) (ACheck [50] m_ok)))) (n_said X8) (n_heard X8) (n_lost X8) (n_gone X8).
Definition offer2 : list action := [AWrite 0; AWorker; AWorker; AWorker; AWorker; AWorker; ANotify; ANotify; ANotify; AWriter].
Definition XA : net := goes (posts true X9 offer2) X9.
Definition q7 := q_decrypt (mkeys (saved (disk d_a3))) 10 (disk d_a3) ok.
Definition d_a4 : dir := mset d_a3 ratchet_file (image 10 (fst q7)).
Definition w_ok : pushed := mkPushed 1 [50] m_ok.
Notation p_ok := (DiskMessage_Payload (p_msg w_ok)).
Definition XB : net := mkNet (n_done XA ++ [Recv true same_order 10 p_ok]) (set (n_dir XA) true d_a4) (n_up XA) (n_fly XA)
  (set (n_box XA) true (got (exec careful (n_box XA true) AReceive))) (n_said XA)
  (set (n_heard XA) true (n_heard XA true ++ [(bs "ok", p_ok)])) (n_lost XA) (n_gone XA).

Lemma X6_runs : q_nruns X6.
Proof.
  refine (nruns_step _ _ _ _ _ _ _ _ _ _ _ _ _ _ X5_runs (N_say _ _ _ _ _ _ _ _ _ _ _ _ X5 false (q_xs 1) (nn 3) (nn 4) (bs "yo") 8 d_b3 yo' _ _ _ _ _ _ _)).
  - vm_compute. reflexivity.
  - lia.
  - reflexivity.
  - reflexivity.
  - intros [|] y H; vm_compute in H; [destruct H|]. destruct H as [<-|[]]. vm_compute. discriminate.
  - assert (D : n_dir X5 false = d_b1) by (vm_compute; reflexivity). rewrite D.
    apply (Tx_sent _ _ _ _ _ _ _ _ _ _ _ q_sk (disk d_b1) (fst q5)); [vm_compute; reflexivity|vm_compute; reflexivity|constructor].
  - vm_compute. reflexivity.
Qed.
Lemma X7_runs : q_nruns X7.
Proof. exact (nruns_step _ _ _ _ _ _ _ _ _ _ _ _ _ _ X6_runs (N_cut _ _ _ _ _ _ _ _ _ _ _ _ X6 false 0)). Qed.
Lemma X8_runs : q_nruns X8.
Proof.
  refine (nruns_step _ _ _ _ _ _ _ _ _ _ _ _ _ _ X7_runs (N_say _ _ _ _ _ _ _ _ _ _ _ _ X7 false (q_xs 1) (nn 5) (nn 6) (bs "ok") 9 d_b4 ok _ _ _ _ _ _ _)).
  - vm_compute. reflexivity.
  - lia.
  - reflexivity.
  - reflexivity.
  - intros [|] y H; vm_compute in H; [destruct H|]. destruct H as [<-|[<-|[]]]; vm_compute; discriminate.
  - assert (D : n_dir X7 false = d_b3) by (vm_compute; reflexivity). rewrite D.
    apply (Tx_sent _ _ _ _ _ _ _ _ _ _ _ q_sk (disk d_b3) (fst q6)); [vm_compute; reflexivity|vm_compute; reflexivity|constructor].
  - vm_compute. reflexivity.
Qed.
Lemma X9_runs : q_nruns X9.
Proof.
  refine (nruns_step _ _ _ _ _ _ _ _ _ _ _ _ _ _ X8_runs (N_arrive _ _ _ _ _ _ _ _ _ _ _ _ X8 false ok [] [50] 6%Z _ _ _ _ _)).
  - reflexivity.
  - vm_compute. intros y [].
  - vm_compute. repeat split; try lia; try discriminate; repeat constructor.
  - vm_compute. reflexivity.
Qed.
Lemma XA_runs : q_nruns XA.
Proof. apply goes_runs; [exact X9_runs|]. vm_compute. reflexivity. Qed.
Lemma XB_runs : q_nruns XB.
Proof.
  assert (S : exists s, m_sess (n_box XA true) = Some s /\ s_wire s = [w_ok]) by (eexists; split; vm_compute; reflexivity).
  destruct S as (s & S1 & S2).
  assert (R : exec careful (n_box XA true) AReceive = Some (got (exec careful (n_box XA true) AReceive))) by (vm_compute; reflexivity).
  assert (D : n_dir XA true = d_a3) by (vm_compute; reflexivity).
  assert (H : q_receive same_order p_ok 10 (n_dir XA true) d_a4 (Some (bs "ok")) true).
  { rewrite D. apply (Rx_handled _ _ _ _ _ _ _ _ q_sk (disk d_a3) (fst q7) (bs "ok")); [vm_compute; reflexivity|vm_compute; reflexivity|constructor]. }
  assert (U : n_up XA true = true) by (vm_compute; reflexivity).
  assert (F : from_him (q_id false) (p_msg w_ok) = true) by reflexivity.
  assert (T : (0 <= 10 <= 1000000000)%Z) by lia.
  pose proof (N_hear q_hmac q_sha toy_x25519 toy_base toy_seal toy_unseal q_xs q_a q_b 0 1000000000 q_id XA true s w_ok [] _ same_order 10%Z d_a4 (bs "ok")
    U T (fun l => Permutation_refl l) S1 S2 F R) as St.
  specialize (St H). exact (nruns_step _ _ _ _ _ _ _ _ _ _ _ _ _ _ XA_runs St).
Qed.
Lemma XB_bounded : bounded 11 XB.
Proof. split; [vm_compute; reflexivity|vm_compute; lia]. Qed.

Example C71_once_case : NoDup (map snd (n_heard XB true)) /\ length (n_heard XB true) = 2%nat.
Proof. split; [exact (proj1 (proj2 (C71_once _ _ _ _ _ _ _ _ _ _ _ _ _ _ q_crypto XB true XB_runs XB_bounded)))|vm_compute; reflexivity]. Qed.
Example C71_order_case : sub [(bs "hi", hi); (bs "ok", ok)] [(bs "hi", hi); (bs "yo", yo'); (bs "ok", ok)].
Proof.
  assert (A : n_heard XB true = [(bs "hi", hi); (bs "ok", ok)]) by (vm_compute; reflexivity).
  assert (B : n_said XB (negb true) = [(bs "hi", hi); (bs "yo", yo'); (bs "ok", ok)]) by (vm_compute; reflexivity).
  rewrite <- A, <- B. refine (C71_order _ _ _ _ _ _ _ _ _ _ _ _ _ _ q_crypto XB true XB_runs XB_bounded _). vm_compute. lia.
Qed.
Example C71_lost_case : n_lost XB false = [yo'] /\ ~ In yo' (map snd (n_heard XB true)).
Proof.
  assert (L : n_lost XB false = [yo']) by (vm_compute; reflexivity). split; [exact L|].
  apply (C71_lost _ _ _ _ _ _ _ _ _ _ _ _ _ _ q_crypto XB XB true yo' XB_runs (nlater_now _ _ _ _ _ _ _ _ _ _ _ _ _) XB_bounded). left. cbn [negb]. rewrite L. apply in_eq.
Qed.
Example C71_kept_case : exists n d, mget (m_disk (n_box X3 true)) n = Some (enc DiskMessage_codec d) /\
  DiskMessage_From d = q_id false /\ DiskMessage_Payload d = hi.
Proof.
  assert (H : In (bs "hi", hi) (n_said X3 false)) by (vm_compute; now left).
  assert (B : bounded 11 X3) by (split; [vm_compute; reflexivity|vm_compute; lia]).
  assert (L : (length (n_lost X3 false) <= 80)%nat) by (vm_compute; lia).
  destruct (C71_kept _ _ _ _ _ _ _ _ _ _ _ _ _ _ q_crypto X3 false (bs "hi") hi X3_runs B L H) as [Y|[(n & d & Y & _)|[Y|[Y|[Y|Y]]]]];
    [| |exact Y| | |]; vm_compute in Y; destruct Y.
Qed.

(** Alice's client dies between saving the ratchet and handling "hi"; the server offers
    it again, and the ratchet refuses it. *)
Definition XD : net := mkNet (n_done X3 ++ [Recv true same_order 7 p_hi]) (set (n_dir X3) true d_a3) (set (n_up X3) true false) (n_fly X3)
  (set (n_box X3) true (got (exec careful (n_box X3 true) AReceive))) (n_said X3) (n_heard X3) (n_lost X3) (set (n_gone X3) true (n_gone X3 true ++ [p_hi])).
Lemma XD_runs : q_nruns XD.
Proof.
  destruct wire3 as (s & S1 & S2).
  assert (D : n_dir X3 true = D0 true) by (vm_compute; reflexivity).
  assert (H : q_receive same_order p_hi 7 (n_dir X3 true) d_a3 None true).
  { rewrite D. apply (Rx_died _ _ _ _ _ _ _ _ q_sk (disk (D0 true)) (fst q2) (bs "hi")); [vm_compute; reflexivity|vm_compute; reflexivity|constructor]. }
  assert (U : n_up X3 true = true) by (vm_compute; reflexivity).
  assert (F : from_him (q_id false) (p_msg w_hi) = true) by reflexivity.
  assert (T : (0 <= 7 <= 1000000000)%Z) by lia.
  pose proof (N_die q_hmac q_sha toy_x25519 toy_base toy_seal toy_unseal q_xs q_a q_b 0 1000000000 q_id X3 true s w_hi [] _ same_order 7%Z d_a3 true
    U T (fun l => Permutation_refl l) S1 S2 F recv3) as St.
  specialize (St H). exact (nruns_step _ _ _ _ _ _ _ _ _ _ _ _ _ _ X3_runs St).
Qed.

Lemma XD_gone : n_gone XD true = [p_hi].
Proof. vm_compute. reflexivity. Qed.

(** It is not the case that what a client handed to its connection is on its way, in
    the mailbox, or handled some time: it may have been lost with the connection, although
    both clients go on running, and a client may have died over it, although nothing was
    lost. *)
Notation q_later := (nlater q_hmac q_sha toy_x25519 toy_base toy_seal toy_unseal q_xs q_a q_b 0 1000000000 q_id).
Theorem C71_delivered_refuted :
  (exists x msg ct, q_nruns x /\ In (msg, ct) (n_said x false) /\ (forall who, n_up x who = true /\ n_gone x who = []) /\
     forall x', q_later x x' -> bounded 11 x' -> ~ In ct (map snd (n_heard x' true))) /\
  (exists x msg ct, q_nruns x /\ In (msg, ct) (n_said x false) /\ (forall who, n_lost x who = []) /\
     forall x', q_later x x' -> bounded 11 x' -> ~ In ct (map snd (n_heard x' true))).
Proof.
  split.
  - exists X7, (bs "yo"), yo'. split; [exact X7_runs|]. split; [vm_compute; auto|]. split; [intros [|]; split; vm_compute; reflexivity|].
    intros x' L B. apply (C71_lost _ _ _ _ _ _ _ _ _ _ _ _ _ _ q_crypto X7 x' true yo' X7_runs L B). left. apply in_eq.
  - exists XD, (bs "hi"), p_hi. split; [exact XD_runs|]. split; [vm_compute; auto|]. split; [intros [|]; vm_compute; reflexivity|].
    intros x' L B. apply (C71_lost _ _ _ _ _ _ _ _ _ _ _ _ _ _ q_crypto XD x' true p_hi XD_runs L B). right. rewrite XD_gone. apply in_eq.
Qed.
Print Assumptions C71_delivered_refuted.
