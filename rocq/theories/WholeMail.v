(** More invariants of the mailbox, for WholeProofs.v: a message on the way to the client
    has behind it all those before it that may still come. *)
From Verif Require Import Base IniModel IniMemProofs IniDiskProofs XdrModel XdrProofs RpcModel RpcProofs MailModel MailProofs MailOnce MailKept.
Local Open Scope N_scope.

(** * A message on the way, and all before it *)

(** A marked name was sent, or a failure comes after nothing later. *)
Definition failing (k : worker) : list note := match k with WSend Bad _ => [Bad] | _ => [] end.
Definition inv_skipped (m : mail) (s : sessn) : Prop := forall n, In n (s_processed s) -> stored m n ->
  In n (sent s) \/ In n (busy (s_worker s)) \/
  exists l1 l2, s_notes s ++ failing (s_worker s) = l1 ++ Bad :: l2 /\ forall x, In x (flat_map name_of l1) -> before x n.

Lemma skipped_step w m s s' : inv_order m s -> sstep w m s s' -> inv_skipped m s -> inv_skipped m s'.
Proof.
  intros O St I. unfold inv_skipped, sent in *. intros n. specialize (I n).
  destruct St; ssimp; try exact I; intros P S; rewrite ?H in *; cbn [busy failing In] in *; auto.
  - (* noread *) destruct (I P S) as [X|[X|(l1 & l2 & X & Y)]]; auto.
    right. right. exists l1, (l2 ++ [Bad]). split; auto. rewrite app_nil_r in X. now rewrite X, <- app_assoc.
  - (* mark *) destruct P as [<-|P]; [right; left; now left|]. destruct (I P S) as [X|[X|X]]; auto.
  - (* bad *) destruct (I P S) as [X|[X|(l1 & l2 & X & Y)]]; auto.
    + destruct X as [<-|[]]. right. right. exists (s_notes s), []. split; auto. intros x X. apply (ir_open m s O); auto. rewrite H. now left.
    + right. right. exists l1, (l2 ++ [Bad]). split; auto. rewrite app_nil_r in X. now rewrite X, <- app_assoc.
  - (* send *) rewrite flat_map_app, in_app_iff. destruct (I P S) as [X|[X|(l1 & l2 & X & Y)]]; auto.
    + left. right. destruct x; cbn in *; tauto.
    + right. right. destruct x; cbn [failing] in *.
      * exists l1, (l2 ++ [Good name m0]). split; auto. rewrite !app_nil_r in *. now rewrite X, <- app_assoc.
      * exists l1, l2. split; auto. now rewrite app_nil_r.
Qed.

Lemma skipped_mail w m m' : clock w = Increasing -> inv_disk m -> in_session inv_once m -> in_session inv_order m ->
  in_session inv_skipped m -> trans w m m' -> in_session inv_skipped m'.
Proof.
  intros C D N O I T s0 E. assert (C' : clock w <> AnyTime) by congruence. destruct T; ssimp; try discriminate.
  - injection E as <-. exact (skipped_step w m s s' (O s H) H0 (I s H)).
  - exact (I _ E).
  - destruct (m_sess m) as [s|] eqn:S; [|discriminate]. injection E as <-. intros x X Y. unfold stored in Y. ssimp.
    rewrite mget_mset in Y. destruct (eqb_spec x n) as [->|]; [|exact (I s S x X Y)]. exfalso.
    destruct (pending_fresh w m i n d C' D H) as (U & _). apply U. apply (io_used _ _ (N s S)). auto.
  - rename s0 into s; pose proof E as S. intros x X Y. unfold stored in Y. ssimp.
    rewrite mget_mset in Y. destruct (eqb_spec x n) as [->|]; [|exact (I s S x X Y)]. exfalso.
    destruct (pending_fresh w m i n d C' D H) as (U & _). apply U. apply (io_used _ _ (N s S)). auto.
  - exact (I _ E).
  - destruct (m_sess m) as [s|] eqn:S; [|discriminate]. injection E as <-. exact (I s S).
  - exact (I _ E).
  - injection E as <-. intros x [].
  - injection E as <-. intros x X Y. apply (I s H); auto. unfold stored in *. destruct (mget (s_out s) t); exact Y.
  - injection E as <-. intros x X Y. ssimp. apply filter_In in X as [X _]. apply (I s H); auto. unfold stored in *. ssimp.
    rewrite mget_mdel in Y. destruct (eqb x (p_name p)); congruence.
  - injection E as <-. exact (I s H).
Qed.

Lemma skipped_reach w m : clock w = Increasing -> reachable w m -> in_session inv_skipped m.
Proof.
  intros C. apply reach_inv2; [intros s; discriminate|]. intros m0 m' R I T. eapply skipped_mail; eauto.
  - eapply inv_disk_reach; eauto. congruence.
  - eapply once_reach; eauto. congruence.
  - eapply order_reach; eauto.
Qed.

(** * What the client is about to receive *)

Lemma SS_app_before l1 x l2 n : StronglySorted before (l1 ++ x :: l2) -> before n x -> In n (l1 ++ x :: l2) -> In n l1.
Proof.
  induction l1 as [|y l1 IH]; cbn [app]; intros S B I; inversion S as [|? ? S1 F1]; subst.
  - exfalso. destruct I as [->|I]; [now apply before_irrefl in B|]. rewrite Forall_forall in F1. apply F1 in I.
    exact (before_irrefl _ (before_trans _ _ _ I B)).
  - destruct I as [->|I]; [now left|right; auto].
Qed.
Lemma names_offer l : flat_map name_of (map offer l) = map p_name l.
Proof. induction l; cbn; congruence. Qed.
Lemma offers_first R rest cur l1 l2 : (map offer R ++ rest) ++ cur = l1 ++ Bad :: l2 -> incl (map p_name R) (flat_map name_of l1).
Proof.
  revert l1. induction R as [|p R IH]; intros l1 Q x X; [destruct X|]. destruct l1 as [|y l1]; cbn in Q; [discriminate|].
  injection Q as <- Q. cbn. destruct X as [<-|X]; [now left|]. right. exact (IH l1 Q x X).
Qed.

Lemma wire_complete w m s p r n : clock w = Increasing -> reachable w m -> m_sess m = Some s -> s_wire s = p :: r ->
  before n (p_name p) -> stored m n -> In n (map p_name (s_rcvd s)).
Proof.
  intros C R S W B A. pose proof (order_reach w m C R s S) as O. destruct (chain_reach w m R s S) as (rest & E & _).
  rewrite W in E.
  assert (Se : sent s = map p_name (s_rcvd s) ++ p_name p :: (map p_name r ++ flat_map name_of rest)).
  { unfold sent. rewrite E. rewrite flat_map_app, names_offer, map_app, <- app_assoc. reflexivity. }
  assert (Ip : In (p_name p) (sent s)). { rewrite Se. apply in_or_app. right. now left. }
  assert (Lose : before (p_name p) n -> In n (map p_name (s_rcvd s))).
  { intros X. destruct (before_irrefl _ (before_trans _ _ _ B X)). }
  destruct (in_dec (list_eq_dec N.eq_dec) n (s_processed s)) as [P|P].
  - destruct (skipped_reach w m C R s S n P A) as [X|[X|(l1 & l2 & X & Y)]].
    + pose proof (ir_sent m s O) as SS. rewrite Se in SS, X. now apply SS_app_before in X.
    + apply Lose. destruct (s_worker s) eqn:K; cbn in X; try tauto.
      * apply (ir_open m s O); auto. rewrite K. exact X.
      * destruct x; [|destruct X]. apply (ir_ready m s O); auto. rewrite K. exact X.
    + apply Lose, Y. rewrite E in X. apply offers_first in X. apply X. rewrite map_app. apply in_or_app. right. now left.
  - apply Lose. apply (ir_wait m s O); [left; apply in_or_app; now left|]. split; auto.
Qed.

(** * Deliveries are in the order of their names *)

Lemma done_sorted w m : clock w = Increasing -> reachable w m -> StronglySorted before (map fst (m_done m)).
Proof.
  intros C. apply (reach_inv w (fun m => StronglySorted before (map fst (m_done m)))); [constructor|]. intros m0 m' I T. destruct T; ssimp; auto.
  - rewrite map_app. apply SS_before_snoc; auto. intros y Y. apply (H1 C). unfold used. apply in_or_app. now left.
  - now destruct (mget (s_out s) t).
Qed.

(** * What is acknowledged *)

Record inv_good (P : pushed -> Prop) (m : mail) : Prop := {
  gd_acked : forall p, In p (m_acked m) -> P p;
  gd_acks : forall s t p, m_sess m = Some s -> In t (s_acks s) -> mget (s_out s) t = Some p -> P p;
  gd_del : forall s t p, m_sess m = Some s -> s_hand s = HDelete t (Some p) -> P p
}.

Lemma good_trans w (P : pushed -> Prop) m m' : honest w = true -> reachable w m -> trans w m m' ->
  (forall s, m_sess m = Some s -> forall p, In p (s_recv s) -> P p) \/
  (forall s s', m_sess m = Some s -> m_sess m' = Some s' -> incl (s_acks s') (s_acks s)) ->
  inv_good P m -> inv_good P m'.
Proof.
  intros Ho R T K [G1 G2 G3]. destruct T; ssimp.
  2-3: constructor; ssimp; eauto; destruct (m_sess m) as [s|] eqn:S; try discriminate; intros ? ? ? [= <-]; ssimp; eauto.
  - pose proof (tags_reach w m Ho R s H) as [I1 I2 I3 I4 I5 I6 I7 I8 I9].
    constructor; ssimp; auto; intros s0 t0 p0 [= <-]; destruct H0; ssimp; eauto; try discriminate; try congruence.
    + (* tag *) intros X. rewrite mget_mset. destruct (eqb_spec t0 t) as [->|]; [|eauto].
      exfalso. apply (I5 t); [|congruence]. unfold taken. rewrite !in_app_iff. auto.
    + intros X. rewrite mget_mdel. destruct (eqb t0 t); [discriminate|eauto].
    + intros X Y. apply in_app_iff in X as [X|[<-|[]]]; [eauto|].
      destruct K as [K|K].
      * destruct (remove_tag_perm _ _ _ H1) as (q & Eq & Pm).
        assert (Iq : In q (s_recv s)) by (apply (Permutation_in _ (Permutation_sym Pm)); now left).
        assert (X : mget (s_out s) (p_tag q) = Some q). { apply I3. unfold flight. rewrite !in_app_iff. auto. }
        rewrite Eq, Y in X. injection X as ->. eauto.
      * apply (G2 s t p0 H); auto. apply (K s _ H eq_refl). ssimp. apply in_or_app. right. now left.
  - constructor; ssimp; eauto.
  - constructor; ssimp; eauto.
  - constructor; ssimp; auto; destruct (m_sess m) as [s|] eqn:S; try discriminate; intros ? ? ? [= <-]; ssimp; eauto.
  - constructor; ssimp; eauto.
  - constructor; ssimp; auto; intros ? ? ? [= <-]; cbn; [tauto|discriminate].
  - constructor; ssimp; auto; discriminate.
  - constructor; ssimp; auto; discriminate.
  - constructor; ssimp; auto; discriminate.
  - assert (X : forall p, mget (s_out s) t = Some p -> P p) by (intros p Y; apply (G2 s t p H); auto; rewrite H2; now left).
    constructor; ssimp.
    + intros p Y. destruct (mget (s_out s) t); ssimp; auto. apply in_app_iff in Y as [Y|[<-|[]]]; auto.
    + intros s0 t' p [= <-] Y Z. ssimp. apply (G2 s t' p H); auto. rewrite H2. now right.
    + intros s0 t' p [= <-]. ssimp. intros [= <- Y]. auto.
  - constructor; ssimp; auto; intros s0 t' p' [= <-]; ssimp; eauto. discriminate.
  - constructor; ssimp; auto; intros s0 t' p' [= <-]; ssimp; eauto.
Qed.

(** What the client holds it has received in this session. *)
Lemma recv_rcvd w m : reachable w m -> in_session (fun _ s => incl (s_recv s) (s_rcvd s)) m.
Proof.
  apply reach_inv; [intros s; discriminate|]. intros m0 m' I T s0 E. destruct T; ssimp; try discriminate; try (injection E as <-); eauto.
  - specialize (I s H). destruct H0; ssimp; auto. intros q X. apply I. eapply remove_tag_In; eauto.
  - destruct (m_sess m0) as [s|] eqn:S; [|discriminate]. injection E as <-. exact (I s S).
  - destruct (m_sess m0) as [s|] eqn:S; [|discriminate]. injection E as <-. exact (I s S).
  - intros q X. exact X.
  - exact (I s H).
  - exact (I s H).
  - intros q X. apply in_app_iff in X. apply in_or_app. specialize (I s H q). tauto.
Qed.

(** What an action leaves of the session, unless the client receives something. *)
Lemma exec_rcvd w m a m' s' : a <> AReceive -> exec w m a = Some m' -> m_sess m' = Some s' ->
  (s_rcvd s' = [] /\ a = AOnline) \/ exists s, m_sess m = Some s /\ s_rcvd s' = s_rcvd s /\
    ((forall t, a <> AAck t) -> incl (s_acks s') (s_acks s)).
Proof.
  intros N E S.
  assert (Same : m_sess m' = m_sess m -> exists s, m_sess m = Some s /\ s_rcvd s' = s_rcvd s /\ ((forall t, a <> AAck t) -> incl (s_acks s') (s_acks s))).
  { intros X. exists s'. rewrite <- X. split; [exact S|]. split; [reflexivity|]. intros _ x Y. exact Y. }
  assert (Sess : forall f, in_sess m f = Some m' ->
      (forall s s1, f s = Some s1 -> s_rcvd s1 = s_rcvd s /\ ((forall t, a <> AAck t) -> incl (s_acks s1) (s_acks s))) ->
      exists s, m_sess m = Some s /\ s_rcvd s' = s_rcvd s /\ ((forall t, a <> AAck t) -> incl (s_acks s') (s_acks s))).
  { intros f X Y. unfold in_sess in X. destruct (m_sess m) as [s|]; [|discriminate]. destruct (f s) as [s1|] eqn:Z; [|discriminate].
    injection X as <-. injection S as <-. exists s. split; [reflexivity|]. exact (Y s s1 Z). }
  destruct a; cbn [exec] in E; try congruence.
  - right. apply Same. destruct (m_there m && mhas (m_disk m) n); [discriminate|].
    destruct (match clock w with AnyTime => true | _ => fresh m n end); [|discriminate]. now injection E as <-.
  - right. destruct (nth_error (m_pending m) i) as [[n d]|]; [|discriminate]. destruct (m_there m); [|apply Same; now injection E as <-].
    destruct (match clock w with Increasing => later m n | _ => true end); [|discriminate]. injection E as <-.
    destruct (m_sess m) as [s|] eqn:Z; ssimp; [|congruence]. injection S as <-. exists s. ssimp. repeat split; auto using incl_refl.
  - right. apply Same. destruct (nth_error (m_pending m) i) as [[n d]|]; [|discriminate]. destruct part as [k|]; [|now injection E as <-].
    destruct (m_there m && _); [|discriminate]. now injection E as <-.
  - right. destruct (m_there m); [|discriminate]. injection E as <-. destruct (m_sess m) as [s|] eqn:Z; ssimp; [|congruence].
    injection S as <-. exists s. ssimp. repeat split; auto using incl_refl.
  - right. apply Same. destruct (m_there m); [discriminate|]. now injection E as <-.
  - left. destruct (m_sess m); [discriminate|]. destruct (m_there m); [|discriminate]. injection E as <-. injection S as <-. split; reflexivity.
  - exfalso. destruct (m_sess m) as [s|]; [|discriminate]. destruct (s_hand s); try discriminate. injection E as <-. discriminate.
  - exfalso. destruct part as [[i k]|]; [|injection E as <-; discriminate]. destruct (nth_error (m_pending m) i) as [[n d]|]; [|discriminate].
    destruct (m_there m && _); [|discriminate]. injection E as <-. discriminate.
  - right. apply (Sess _ E). intros s s1. unfold worker_step. destruct (s_worker s).
    + destruct (s_work s); [discriminate|]. intros [= <-]. split; [reflexivity|intros _; apply incl_refl].
    + destruct (s_work s); [|discriminate]. intros [= <-]. split; [reflexivity|intros _; apply incl_refl].
    + intros [= <-]. split; [reflexivity|intros _; apply incl_refl].
    + destruct names; [|destruct (mem _ _)]; intros [= <-]; (split; [reflexivity|intros _; apply incl_refl]).
    + intros [= <-]. split; [reflexivity|intros _; apply incl_refl].
    + destruct (Nat.ltb _ _); [|discriminate]. intros [= <-]. split; [reflexivity|intros _; apply incl_refl].
  - right. apply (Sess _ E). intros s s1. unfold notify_step. destruct (s_nt s).
    + destruct (s_ntfn s) as [|[|] ?]; [discriminate| |]; intros [= <-]; (split; [reflexivity|intros _; apply incl_refl]).
    + destruct (s_free s); [discriminate|]. cbv zeta. destruct (mget _ _); intros [= <-]; (split; [reflexivity|intros _; apply incl_refl]).
    + destruct (Nat.ltb _ _); [|discriminate]. intros [= <-]. split; [reflexivity|intros _; apply incl_refl].
    + discriminate.
  - right. apply (Sess _ E). intros s s1. unfold writer_step. destruct (s_writer s); [discriminate|]. destruct (s_wdead s || s_closed s); [discriminate|].
    intros [= <-]. split; [reflexivity|intros _; apply incl_refl].
  - right. apply (Sess _ E). intros s s1. unfold writer_fail. destruct (s_writer s); [discriminate|]. destruct (s_wdead s); [discriminate|].
    intros [= <-]. split; [reflexivity|intros _; apply incl_refl].
  - right. destruct (m_sess m) as [s|] eqn:Z; [|discriminate]. exists s. split; [reflexivity|].
    destruct (handler_step m s) as [[m1 s1]|] eqn:Hs; [|discriminate]. injection E as <-. injection S as <-. unfold handler_step in Hs.
    destruct (s_hand s) as [|t o|t|t].
    + destruct (s_closed s); [discriminate|]. destruct (s_acks s) as [|t r] eqn:A; [discriminate|]. injection Hs as _ <-. ssimp. split; [reflexivity|].
      intros _ x X. now right.
    + destruct o as [p|]; [destruct (m_there m && _)|]; injection Hs as _ <-; (split; [reflexivity|intros _; apply incl_refl]).
    + injection Hs as _ <-. split; [reflexivity|intros _; apply incl_refl].
    + destruct (Nat.ltb _ _); [|discriminate]. injection Hs as _ <-. split; [reflexivity|intros _; apply incl_refl].
  - right. apply (Sess _ E). intros s s1. destruct (honest w); [destruct (remove_tag t (s_recv s)); [|discriminate]|destruct (t <? _); [|discriminate]];
      intros [= <-]; (split; [reflexivity|intros X; destruct (X t eq_refl)]).
Qed.

(** What an action does to deliveries, to what was delivered, and to what the client got. *)
Lemma trans_got w m m' : trans w m m' -> m_got m' = m_got m \/ exists s p r, m_sess m = Some s /\ s_wire s = p :: r /\ m_got m' = m_got m ++ [p].
Proof.
  destruct 1; ssimp; auto.
  - left. now destruct (mget (s_out s) t).
  - right. exists s, p, r. auto.
Qed.

Definition moved (m m' : mail) : Prop :=
  (m_done m' = m_done m /\ m_pending m' = m_pending m) \/
  (exists i n d, nth_error (m_pending m) i = Some (n, d) /\ m_pending m' = drop i (m_pending m) /\
     (m_done m' = m_done m ++ [(n, d)] \/ m_done m' = m_done m)) \/
  (m_done m' = m_done m /\ m_pending m' = []).

Lemma exec_moved w m a m' : cutting a = false -> exec w m a = Some m' ->
  m_partial m' = m_partial m /\
  match a with
  | ACheck n d => m_done m' = m_done m /\ m_pending m' = m_pending m ++ [(n, d)]
  | _ => moved m m'
  end.
Proof.
  intros NC E.
  assert (Sess : forall f, in_sess m f = Some m' -> m_partial m' = m_partial m /\ moved m m').
  { intros f X. unfold in_sess in X. destruct (m_sess m) as [s|]; [|discriminate]. destruct (f s) as [s1|] eqn:Z; [|discriminate].
    injection X as <-. split; [reflexivity|left; split; reflexivity]. }
  destruct a; cbn [exec] in E; eauto.
  - destruct (m_there m && mhas (m_disk m) n); [discriminate|].
    destruct (match clock w with AnyTime => true | _ => fresh m n end); [|discriminate]. injection E as <-. repeat split; reflexivity.
  - destruct (nth_error (m_pending m) i) as [[n d]|] eqn:Q; [|discriminate]. destruct (m_there m).
    + destruct (match clock w with Increasing => later m n | _ => true end); [|discriminate]. injection E as <-.
      destruct (m_sess m); (split; [reflexivity|]); right; left; exists i, n, d; repeat split; auto; left; reflexivity.
    + injection E as <-. split; [reflexivity|]. right. left. exists i, n, d. repeat split; auto.
  - destruct part; [discriminate NC|]. destruct (nth_error (m_pending m) i) as [[n d]|] eqn:Q; [|discriminate].
    injection E as <-. split; [reflexivity|]. right. left. exists i, n, d. repeat split; auto.
  - destruct (m_there m); [|discriminate]. injection E as <-. destruct (m_sess m); (split; [reflexivity|left; split; reflexivity]).
  - destruct (m_there m); [discriminate|]. injection E as <-. split; [reflexivity|left; split; reflexivity].
  - destruct (m_sess m); [discriminate|]. destruct (m_there m); [|discriminate]. injection E as <-. split; [reflexivity|left; split; reflexivity].
  - destruct (m_sess m) as [s|]; [|discriminate]. destruct (s_hand s); try discriminate. injection E as <-. split; [reflexivity|left; split; reflexivity].
  - destruct part; [discriminate NC|]. injection E as <-. split; [reflexivity|right; right; split; reflexivity].
  - destruct (m_sess m) as [s|]; [|discriminate]. destruct (handler_step m s) as [[m1 s1]|] eqn:Hs; [|discriminate]. injection E as <-.
    unfold handler_step in Hs. destruct (s_hand s) as [|t o|t|t].
    + destruct (s_closed s); [discriminate|]. destruct (s_acks s) as [|t r]; [discriminate|]. injection Hs as <- _.
      destruct (mget (s_out s) t); (split; [reflexivity|left; split; reflexivity]).
    + destruct o as [p|]; [destruct (m_there m && _)|]; injection Hs as <- _; (split; [reflexivity|left; split; reflexivity]).
    + injection Hs as <- _. split; [reflexivity|left; split; reflexivity].
    + destruct (Nat.ltb _ _); [|discriminate]. injection Hs as <- _. split; [reflexivity|left; split; reflexivity].
  - destruct (m_sess m) as [s|]; [|discriminate]. destruct (s_wire s); [discriminate|]. injection E as <-. split; [reflexivity|left; split; reflexivity].
Qed.

Lemma exec_got w m a m' : act_ok a -> a <> AReceive -> exec w m a = Some m' -> m_got m' = m_got m.
Proof.
  intros A N E. pose proof (exec_trans w m a m' A E) as T. destruct a; cbn [exec] in E; try congruence;
  try (unfold in_sess in E; destruct (m_sess m) as [s|]; [|discriminate]; match type of E with context [match ?f with Some _ => _ | None => _ end] => destruct f; [|discriminate] end; now injection E as <-).
  - destruct (m_there m && mhas (m_disk m) n); [discriminate|].
    destruct (match clock w with AnyTime => true | _ => fresh m n end); [|discriminate]. now injection E as <-.
  - destruct (nth_error (m_pending m) i) as [[n d]|] eqn:Q; [|discriminate]. destruct (m_there m).
    + destruct (match clock w with Increasing => later m n | _ => true end); [|discriminate]. injection E as <-. now destruct (m_sess m).
    + now injection E as <-.
  - destruct (nth_error (m_pending m) i) as [[n d]|] eqn:Q; [|discriminate]. destruct part as [k|]; [|now injection E as <-].
    destruct (m_there m && _); [|discriminate]. now injection E as <-.
  - destruct (m_there m); [|discriminate]. injection E as <-. now destruct (m_sess m).
  - destruct (m_there m); [discriminate|]. now injection E as <-.
  - destruct (m_sess m); [discriminate|]. destruct (m_there m); [|discriminate]. now injection E as <-.
  - destruct (m_sess m) as [s|]; [|discriminate]. destruct (s_hand s); try discriminate. now injection E as <-.
  - destruct part as [[i k]|]; [|now injection E as <-]. destruct (nth_error (m_pending m) i) as [[n d]|]; [|discriminate].
    destruct (m_there m && _); [|discriminate]. now injection E as <-.
  - destruct (m_sess m) as [s|]; [|discriminate]. destruct (handler_step m s) as [[m1 s1]|] eqn:Hs; [|discriminate]. injection E as <-.
    unfold handler_step in Hs. destruct (s_hand s) as [|t o|t|t].
    + destruct (s_closed s); [discriminate|]. destruct (s_acks s) as [|t r]; [discriminate|]. injection Hs as <- _. now destruct (mget (s_out s) t).
    + destruct o as [p|]; [destruct (m_there m && _)|]; now injection Hs as <- _.
    + now injection Hs as <- _.
    + destruct (Nat.ltb _ _); [|discriminate]. now injection Hs as <- _.
Qed.
