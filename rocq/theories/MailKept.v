(** Tags of messages that are under way, and what is left on disk: invariants. *)
From Verif Require Import Base IniModel IniMemProofs IniDiskProofs XdrModel XdrProofs RpcModel RpcProofs MailModel MailProofs MailOnce.
Local Open Scope N_scope.

(** Messages between the tag stack and the acknowledgement; tags in use there. *)
Definition flight (s : sessn) : list pushed := tagged (s_nt s) ++ s_writer s ++ s_wire s ++ s_recv s.
Definition pushing (h : handler) : list N := match h with HPush t => [t] | _ => [] end.
Definition holding (h : handler) : list N := match h with HDelete t _ | HFree t => [t] | _ => [] end.
Definition taken (s : sessn) : list N := map p_tag (flight s) ++ s_acks s ++ holding (s_hand s).
Definition stack (s : sessn) : list N := s_free s ++ mkeys (s_out s) ++ pushing (s_hand s).

Record inv_tags (s : sessn) : Prop := {
  it_part : NoDup (stack s);
  it_count : length (stack s) = depth;
  it_flight : forall p, In p (flight s) -> mget (s_out s) (p_tag p) = Some p;
  it_taken : NoDup (taken s);
  it_dom : forall t, In t (taken s) -> mget (s_out s) t <> None;
  it_all : s_wdead s = false -> forall t, mget (s_out s) t <> None -> In t (taken s);
  it_del : forall t o, s_hand s = HDelete t o -> o = mget (s_out s) t;
  it_ntfn : forall x, In x (s_ntfn s) -> In x (s_notes s);
  it_bad : s_nt s = NDead -> In Bad (s_notes s)
}.

Lemma remove_tag_perm t l : forall r, remove_tag t l = Some r -> exists p, p_tag p = t /\ Permutation l (p :: r).
Proof.
  induction l as [|q l IH]; intros r; cbn; [discriminate|]. destruct (eqb_spec (p_tag q) t) as [E|E].
  - intros [= ->]. exists q. auto.
  - destruct (remove_tag t l) as [r'|]; [|discriminate]. intros [= <-]. destruct (IH r' eq_refl) as (p & Ep & P).
    exists p. split; auto. rewrite P. apply perm_swap.
Qed.

Lemma mkeys_new {V} (m : list (N * V)) t p : mget m t = None -> mkeys (mset m t p) = mkeys m ++ [t].
Proof. intros E. rewrite mkeys_mset. unfold mhas. now rewrite E. Qed.

Lemma perm_mdel {V} (m : list (N * V)) t p : NoDup (mkeys m) -> mget m t = Some p -> Permutation (mkeys m) (t :: mkeys (mdel m t)).
Proof.
  intros N E. apply NoDup_Permutation; auto.
  - constructor; [|now apply NoDup_mdel]. rewrite In_mkeys_mdel. tauto.
  - intros x. cbn [In]. rewrite In_mkeys_mdel. split.
    + intros H. destruct (N.eq_dec t x); auto.
    + intros [<-|[H _]]; auto. now apply mget_Some_keys in E.
Qed.
Lemma mkeys_dom {V} (m : list (N * V)) t : In t (mkeys m) <-> mget m t <> None.
Proof. split; [intros I E; now apply mget_None in E|]. intros S. destruct (mget m t) eqn:E; [now apply mget_Some_keys in E|congruence]. Qed.

Ltac perm := rewrite ?map_app; cbn [map app]; rewrite <- ?app_assoc; cbn [app];
  repeat match goal with |- Permutation (?a ++ ?b) (?a ++ ?c) => apply Permutation_app_head | |- Permutation (?a :: ?b) (?a :: ?c) => apply perm_skip end;
  try reflexivity; auto using Permutation_middle, Permutation_app_comm, Permutation_cons_append, Permutation_sym.

Lemma tags_same s s' : Permutation (stack s) (stack s') -> s_out s' = s_out s -> Permutation (flight s) (flight s') ->
  Permutation (taken s) (taken s') -> (s_wdead s' = false -> s_wdead s = false) ->
  (forall t o, s_hand s' = HDelete t o -> o = mget (s_out s') t) ->
  (forall x, In x (s_ntfn s') -> In x (s_notes s')) -> (s_nt s' = NDead -> In Bad (s_notes s')) ->
  inv_tags s -> inv_tags s'.
Proof.
  intros P1 Eo P2 P3 W Hd N1 N2 [I1 I2 I3 I4 I5 I6 I7 I8 I9]. constructor; rewrite ?Eo in *; auto.
  - eapply Permutation_NoDup; eauto.
  - now rewrite <- (Permutation_length P1).
  - intros p Hp. apply I3. eapply Permutation_in; [symmetry|]; eauto.
  - eapply Permutation_NoDup; eauto.
  - intros t Ht. apply I5. eapply Permutation_in; [symmetry|]; eauto.
  - intros W' t Ht. eapply Permutation_in; eauto.
Qed.

Lemma tags_step w m s s' : honest w = true -> sstep w m s s' -> inv_tags s -> inv_tags s'.
Proof.
  intros Ho St I. pose proof I as [I1 I2 I3 I4 I5 I6 I7 I8 I9].
  destruct St; try congruence;
    try solve [apply (tags_same s); ssimp; auto; unfold stack, taken, flight; ssimp; reflexivity].
  - (* send *) apply (tags_same s); ssimp; auto; try (unfold stack, taken, flight; ssimp; reflexivity).
    + intros y. rewrite !in_app_iff. intros [X|X]; auto.
    + intros X. apply in_or_app. auto.
  - (* error *) apply (tags_same s); ssimp; auto; try (unfold stack, taken, flight; ssimp; rewrite ?H; reflexivity).
    + intros y Y. apply I8. rewrite H0. now right.
    + intros _. apply I8. rewrite H0. now left.
  - (* take *) apply (tags_same s); ssimp; auto; try (unfold stack, taken, flight; ssimp; rewrite ?H; reflexivity).
    + intros y Y. apply I8. rewrite H0. now right.
    + discriminate.
  - (* dup *) exfalso. unfold stack in I1. rewrite H0 in I1. apply (NoDup_app_not (t :: r) _ t) in I1; [|now left].
    apply I1. apply in_or_app. left. apply mkeys_dom. congruence.
  - (* tag *)
    assert (NT : ~ In t (taken s)) by (intros X; now apply I5 in X).
    assert (K : forall k v, mget (s_out s) k = Some v -> mget (mset (s_out s) t (mkPushed t n d)) k = Some v).
    { intros k v Hk. rewrite mget_mset. destruct (eqb_spec k t) as [->|]; auto. congruence. }
    assert (PT : Permutation (t :: taken s) (taken (set_s_nt (set_s_out (set_s_free s r) (mset (s_out s) t (mkPushed t n d))) (NWrite (mkPushed t n d))))).
    { unfold taken, flight. ssimp. rewrite H. reflexivity. }
    assert (PS : Permutation (stack s) (stack (set_s_nt (set_s_out (set_s_free s r) (mset (s_out s) t (mkPushed t n d))) (NWrite (mkPushed t n d))))).
    { unfold stack. ssimp. rewrite H0, (mkeys_new _ _ _ H1). rewrite <- app_assoc. cbn [app]. rewrite !app_assoc. apply Permutation_middle. }
    constructor.
    + eapply Permutation_NoDup; eauto.
    + now rewrite <- (Permutation_length PS).
    + intros p. unfold flight. ssimp. cbn [tagged app]. intros [<-|X].
      * cbn [p_tag]. rewrite mget_mset. now destruct (eqb_spec t t).
      * apply K, I3. unfold flight. rewrite H. exact X.
    + eapply Permutation_NoDup; [exact PT|]. now constructor.
    + intros t' X. apply (Permutation_in _ (Permutation_sym PT)) in X. ssimp. rewrite mget_mset. destruct (eqb_spec t' t); [discriminate|].
      destruct X as [X|X]; [congruence|auto].
    + ssimp. intros W t' X. apply (Permutation_in _ PT). rewrite mget_mset in X. destruct (eqb_spec t' t) as [Ett|]; [left; now symmetry|right; now apply I6].
    + ssimp. intros t' o E. rewrite (I7 _ _ E), mget_mset. destruct (eqb_spec t' t) as [->|]; auto.
      exfalso. apply NT. unfold taken. rewrite E. apply in_or_app. right. apply in_or_app. right. now left.
    + exact I8.
    + discriminate.
  - (* queue *) apply (tags_same s); ssimp; auto; try discriminate; unfold stack, flight, taken, flight; ssimp; rewrite ?H; cbn [tagged app].
    + rewrite <- app_assoc. cbn [app]. apply Permutation_middle.
    + apply Permutation_app_tail, Permutation_map. rewrite <- app_assoc. cbn [app]. apply Permutation_middle.
  - (* write *) apply (tags_same s); ssimp; auto; unfold stack, flight, taken, flight; ssimp; rewrite ?H; cbn [app].
    + apply Permutation_app_head. rewrite <- app_assoc. cbn [app]. rewrite !app_assoc. apply Permutation_middle.
    + apply Permutation_app_tail, Permutation_map, Permutation_app_head. rewrite <- app_assoc. cbn [app]. rewrite !app_assoc. apply Permutation_middle.
  - (* fail *) constructor; unfold stack, flight, taken, flight in *; ssimp; auto; rewrite ?H in *; cbn [app] in *.
    + intros q X. apply I3. rewrite !in_app_iff in *. cbn [In]. rewrite !in_app_iff. tauto.
    + rewrite map_app, <- app_assoc in I4. cbn [map app] in I4. apply NoDup_remove_1 in I4. now rewrite map_app, <- app_assoc.
    + intros t X. apply I5. rewrite map_app in *. cbn [map]. rewrite !in_app_iff in *. cbn [In]. tauto.
    + discriminate.
  - (* hnone *) exfalso. pose proof (I7 _ _ H) as X. symmetry in X. revert X. apply I5. unfold taken. rewrite H. rewrite !in_app_iff. right. right. now left.
  - (* hgone *) apply (tags_same s); ssimp; auto; try discriminate; unfold stack, flight, taken, flight; ssimp; rewrite ?H; reflexivity.
  - (* hfree *)
    assert (D : mget (s_out s) t <> None). { apply I5. unfold taken. rewrite H. rewrite !in_app_iff. right. right. now left. }
    destruct (mget (s_out s) t) as [p|] eqn:G; [|congruence].
    assert (PS : Permutation (stack s) (stack (set_s_hand (set_s_out s (mdel (s_out s) t)) (HPush t)))).
    { unfold stack. ssimp. rewrite H. cbn [pushing]. rewrite app_nil_r. apply Permutation_app_head.
      rewrite (perm_mdel (s_out s) t p); auto; [apply Permutation_cons_append|]. unfold stack in I1. now apply NoDup_app_r, NoDup_app_l in I1. }
    unfold taken in I4. rewrite H in I4. cbn [holding] in I4. rewrite app_assoc in I4.
    assert (PT : taken s = (map p_tag (flight s) ++ s_acks s) ++ [t]). { unfold taken. rewrite H. cbn [holding]. now rewrite app_assoc. }
    assert (NT : forall x, In x (map p_tag (flight s) ++ s_acks s) -> x <> t).
    { intros x X ->. apply (NoDup_app_not _ _ _ I4) in X. apply X. now left. }
    constructor.
    + eapply Permutation_NoDup; eauto.
    + now rewrite <- (Permutation_length PS).
    + ssimp. intros q X. rewrite mget_mdel. destruct (eqb_spec (p_tag q) t) as [E|]; [|now apply I3].
      exfalso. apply (NT (p_tag q)); auto. apply in_or_app. left. now apply in_map.
    + unfold taken. ssimp. cbn [holding]. rewrite app_nil_r. now apply NoDup_app_l in I4.
    + unfold taken. ssimp. cbn [holding]. rewrite app_nil_r. intros x X. rewrite mget_mdel. destruct (eqb_spec x t) as [Ex|].
      * exfalso. now apply (NT x).
      * apply I5. rewrite PT. apply in_or_app. now left.
    + unfold taken. ssimp. cbn [holding]. rewrite app_nil_r. intros W x X. rewrite mget_mdel in X. destruct (eqb_spec x t) as [Ex|]; [congruence|].
      apply (I6 W) in X. rewrite PT in X. apply in_app_iff in X as [X|[X|[]]]; [auto|congruence].
    + discriminate.
    + exact I8.
    + exact I9.
  - (* hpush *) apply (tags_same s); ssimp; auto; try discriminate; unfold stack, flight, taken, flight; ssimp; rewrite ?H; try reflexivity.
    cbn [pushing]. rewrite app_nil_r, <- app_assoc. apply Permutation_app_head. cbn [app]. symmetry. apply Permutation_cons_append.
  - (* ack *) destruct (remove_tag_perm _ _ _ H0) as (p & <- & P).
    assert (PT : Permutation (taken s) (taken (set_s_acks (set_s_recv s r) (s_acks s ++ [p_tag p])))).
    { unfold taken, flight. ssimp. rewrite P. rewrite !map_app. cbn [map]. rewrite <- !app_assoc. do 3 apply Permutation_app_head. cbn [app].
      rewrite (app_assoc (map p_tag r)), (app_assoc (map p_tag r)). apply Permutation_middle. }
    constructor.
    + exact I1.
    + exact I2.
    + intros q. unfold flight. ssimp. intros X. apply I3. unfold flight. rewrite !in_app_iff in *.
      destruct X as [X|[X|[X|X]]]; auto. right. right. right. apply (Permutation_in _ (Permutation_sym P)). now right.
    + eapply Permutation_NoDup; eauto.
    + intros t X. apply (Permutation_in _ (Permutation_sym PT)) in X. now apply I5.
    + intros W t X. apply (Permutation_in _ PT). now apply I6.
    + exact I7.
    + exact I8.
    + exact I9.
Qed.

Lemma new_tags : inv_tags new_sessn.
Proof.
  constructor; try (cbn; tauto); try discriminate.
  - unfold stack. cbn [new_sessn s_free s_out s_hand mkeys map pushing]. rewrite app_nil_r.
    apply FinFun.Injective_map_NoDup; [intros x y; apply Nat2N.inj|apply seq_NoDup].
  - constructor.
Qed.

Lemma tags_mail w m m' : honest w = true -> in_session (fun _ => inv_tags) m -> trans w m m' -> in_session (fun _ => inv_tags) m'.
Proof.
  intros Ho I T s0 E. destruct T; ssimp; try discriminate; try (injection E as <-); eauto.
  - eapply tags_step; eauto.
  - destruct (m_sess m) as [s|] eqn:S; [|discriminate]. injection E as <-.
    pose proof (I s S) as [I1 I2 I3 I4 I5 I6 I7 I8 I9]. now constructor.
  - destruct (m_sess m) as [s|] eqn:S; [|discriminate]. injection E as <-.
    pose proof (I s S) as [I1 I2 I3 I4 I5 I6 I7 I8 I9]. now constructor.
  - apply new_tags.
  - pose proof (I s H) as It. pose proof It as [I1 I2 I3 I4 I5 I6 I7 I8 I9].
    apply (tags_same s); ssimp; auto; unfold stack, taken, flight; ssimp; rewrite ?H0, ?H2; cbn [pushing holding]; try reflexivity.
    + rewrite app_nil_r. apply Permutation_app_head. apply Permutation_cons_append.
    + now intros t' o [= <- <-].
  - pose proof (I s H) as It. pose proof It as [I1 I2 I3 I4 I5 I6 I7 I8 I9].
    apply (tags_same s); ssimp; auto; unfold stack, taken, flight; ssimp; rewrite ?H0; cbn [pushing holding]; try reflexivity. discriminate.
  - pose proof (I s H) as It. pose proof It as [I1 I2 I3 I4 I5 I6 I7 I8 I9].
    assert (P : Permutation (flight s) (flight (set_s_rcvd (set_s_recv (set_s_wire s r) (s_recv s ++ [p])) (s_rcvd s ++ [p])))).
    { unfold flight. ssimp. rewrite H0. do 2 apply Permutation_app_head. cbn [app]. rewrite app_assoc. apply Permutation_cons_append. }
    apply (tags_same s); ssimp; auto; unfold taken. ssimp. apply Permutation_app_tail, Permutation_map, P.
Qed.

Lemma tags_reach w m : honest w = true -> reachable w m -> in_session (fun _ => inv_tags) m.
Proof. intros Ho. apply reach_inv; [intros s; discriminate|]. intros m0 m' I T. eapply tags_mail; eauto. Qed.

(** * What the client got *)

Record inv_got (m : mail) (s : sessn) : Prop := {
  ig_recv : forall p, In p (s_recv s) -> In p (m_got m);
  ig_acks : forall t p, In t (s_acks s) -> mget (s_out s) t = Some p -> In p (m_got m);
  ig_del : forall t p, s_hand s = HDelete t (Some p) -> In p (m_got m)
}.

Lemma got_step w m s s' : honest w = true -> inv_tags s -> sstep w m s s' -> inv_got m s -> inv_got m s'.
Proof.
  intros Ho It St [G1 G2 G3]. pose proof It as [I1 I2 I3 I4 I5 I6 I7 I8 I9].
  destruct St; try congruence; constructor; ssimp; auto; try discriminate.
  - (* tag *) intros t' p X. rewrite mget_mset. destruct (eqb_spec t' t) as [E|]; [|now apply G2].
    exfalso. apply (I5 t'); [|congruence]. unfold taken. rewrite !in_app_iff. auto.
  - intros t' p X. rewrite mget_mdel. destruct (eqb_spec t' t) as [E|]; [discriminate|]. now apply G2.
  - intros p X. apply G1. eapply remove_tag_In; eauto.
  - intros t' p X Y. apply in_app_iff in X as [X|[<-|[]]]; [eauto|].
    destruct (remove_tag_perm _ _ _ H0) as (q & Eq & P).
    assert (Iq : In q (s_recv s)) by (apply (Permutation_in _ (Permutation_sym P)); now left).
    assert (X : mget (s_out s) (p_tag q) = Some q). { apply I3. unfold flight. rewrite !in_app_iff. auto. }
    rewrite Eq, Y in X. injection X as ->. auto.
Qed.

Lemma got_mail w m m' : honest w = true -> in_session (fun _ => inv_tags) m -> in_session inv_got m -> trans w m m' -> in_session inv_got m'.
Proof.
  intros Ho It I T s0 E. destruct T; ssimp; try discriminate; try (injection E as <-).
  - destruct (got_step w m s s' Ho (It s H) H0 (I s H)) as [G1 G2 G3]. now constructor.
  - destruct (I s0 E) as [G1 G2 G3]. now constructor.
  - destruct (m_sess m) as [s|] eqn:S; [|discriminate]. injection E as <-. destruct (I s S) as [G1 G2 G3]. now constructor.
  - destruct (I s0 E) as [G1 G2 G3]. now constructor.
  - destruct (I s0 E) as [G1 G2 G3]. now constructor.
  - destruct (m_sess m) as [s|] eqn:S; [|discriminate]. injection E as <-. destruct (I s S) as [G1 G2 G3]. now constructor.
  - destruct (I s0 E) as [G1 G2 G3]. now constructor.
  - constructor; cbn; try tauto; discriminate.
  - destruct (I s H) as [G1 G2 G3]. assert (X : m_got (match mget (s_out s) t with Some p => set_m_acked m (m_acked m ++ [p]) | None => m end) = m_got m)
      by (destruct (mget (s_out s) t); auto).
    constructor; ssimp; rewrite ?X; auto.
    + intros t' p Y. apply G2. rewrite H2. now right.
    + intros t' p [= <- Y]. apply (G2 t); auto. rewrite H2. now left.
  - destruct (I s H) as [G1 G2 G3]. constructor; ssimp; auto. discriminate.
  - destruct (I s H) as [G1 G2 G3]. constructor; ssimp; auto; intros; rewrite !in_app_iff in *; cbn [In] in *; firstorder.
Qed.

Lemma got_reach w m : honest w = true -> reachable w m -> in_session inv_got m.
Proof.
  intros Ho. apply reach_inv2; [intros s; discriminate|]. intros m0 m' R I T. eapply got_mail; eauto. eapply tags_reach; eauto.
Qed.

Definition inv_acked (m : mail) (s : sessn) : Prop := forall t p, s_hand s = HDelete t (Some p) -> In p (m_acked m).
Lemma acked_mail w m m' : in_session inv_acked m -> trans w m m' -> in_session inv_acked m'.
Proof.
  intros I T s0 E. unfold inv_acked in *. destruct T; ssimp; try discriminate; try (injection E as <-).
  - destruct H0; ssimp; try (now apply (I s)); discriminate.
  - now apply (I s0).
  - destruct (m_sess m) as [s|] eqn:S; [|discriminate]. injection E as <-. now apply (I s).
  - now apply (I s0).
  - now apply (I s0).
  - destruct (m_sess m) as [s|] eqn:S; [|discriminate]. injection E as <-. now apply (I s).
  - now apply (I s0).
  - discriminate.
  - intros t' p [= <- X]. rewrite X. cbn. apply in_or_app. right. now left.
  - discriminate.
  - now apply (I s).
Qed.
Lemma acked_reach w m : reachable w m -> in_session inv_acked m.
Proof. apply reach_inv; [intros s; discriminate|]. intros m0 m' I T. eapply acked_mail; eauto. Qed.

(** * Kept until received *)

(** A delivered message is on disk, or in the given list. *)
Definition safe (m : mail) (l : list pushed) : Prop := forall n d, In (n, d) (m_done m) ->
  mget (m_disk m) n = Some (enc DiskMessage_codec d) \/ exists p, In p l /\ p_name p = n /\ p_msg p = d.

Lemma safe_step w m m' (f : mail -> list pushed) : clock w <> AnyTime -> inv_disk m -> inv_flow m -> trans w m m' ->
  (forall x, In x (f m) -> In x (f m')) ->
  (forall s t p, m_sess m = Some s -> s_hand s = HDelete t (Some p) -> In p (f m)) -> safe m (f m) -> safe m' (f m').
Proof.
  intros C D Fl T Mo Del Sf n0 d0 H0.
  assert (K : In (n0, d0) (m_done m) -> mget (m_disk m) n0 = Some (enc DiskMessage_codec d0) \/ exists p, In p (f m') /\ p_name p = n0 /\ p_msg p = d0).
  { intros X. destruct (Sf _ _ X) as [Y|(p & Y & Z)]; eauto. }
  assert (NW : forall i n d, nth_error (m_pending m) i = Some (n, d) -> In (n0, d0) (m_done m) -> n0 <> n).
  { intros i n d X Y ->. destruct (pending_fresh w m i n d C D X) as (U & _). apply U. unfold used. apply in_or_app. left.
    apply in_map_iff. now exists (n, d0). }
  destruct T; ssimp; auto.
  - apply in_app_iff in H0 as [X|[[= <- <-]|[]]].
    + destruct (K X) as [Y|Y]; auto. left. rewrite mget_mset. destruct (eqb_spec n0 n); auto. exfalso. eapply NW; eauto.
    + left. rewrite mget_mset. destruct (eqb_spec n n); congruence.
  - destruct (K H0) as [Y|Y]; auto. left. rewrite mget_mset. destruct (eqb_spec n0 n); auto. exfalso. eapply NW; eauto.
  - destruct (K H0) as [Y|Y]; auto. left. rewrite mget_mset. destruct (eqb_spec n0 n); auto. exfalso. eapply NW; eauto.
  - assert (X : m_done (match mget (s_out s) t with Some p => set_m_acked m (m_acked m ++ [p]) | None => m end) = m_done m /\
        m_disk (match mget (s_out s) t with Some p => set_m_acked m (m_acked m ++ [p]) | None => m end) = m_disk m)
      by (destruct (mget (s_out s) t); auto). destruct X as [X Y]. rewrite X in H0. rewrite Y. auto.
  - destruct (K H0) as [Y|Y]; auto. rewrite mget_mdel. destruct (eqb_spec n0 (p_name p)) as [E|]; auto. right.
    exists p. split; [apply Mo; eauto|]. split; auto.
    destruct (if_sess m Fl s H (p_name p) (p_msg p)) as [Z|Z].
    + unfold travelling. rewrite !in_app_iff. rewrite H1. cbn. tauto.
    + rewrite E in H0. eapply done_fun; eauto.
    + exfalso. rewrite E in H0. eapply done_not_partial; eauto.
Qed.

Lemma kept_reach w m : honest w = true -> clock w <> AnyTime -> reachable w m -> safe m (m_got m).
Proof.
  intros Ho C. apply (reach_inv2 w (fun m => safe m (m_got m))); [intros ? ? []|]. intros m0 m' R S T. apply (safe_step w m0 m' m_got); auto.
  - eapply inv_disk_reach; eauto.
  - eapply inv_flow_reach; eauto.
  - destruct T; ssimp; auto; intros; try (apply in_or_app; now left). now destruct (mget (s_out s) t).
  - intros s t p E. apply (got_reach w m0 Ho R s E).
Qed.

Lemma kept_acked_reach w m : clock w <> AnyTime -> reachable w m -> safe m (m_acked m).
Proof.
  intros C. apply (reach_inv2 w (fun m => safe m (m_acked m))); [intros ? ? []|]. intros m0 m' R S T. apply (safe_step w m0 m' m_acked); auto.
  - eapply inv_disk_reach; eauto.
  - eapply inv_flow_reach; eauto.
  - destruct T; ssimp; auto; intros; try (apply in_or_app; now left). destruct (mget (s_out s) t); auto. apply in_or_app. now left.
  - intros s t p E. apply (acked_reach w m0 R s E).
Qed.

(** * What is left on disk is under way *)

Record inv_pend (m : mail) (s : sessn) : Prop := {
  ip_there : s_away s = false -> m_there m = true;
  ip_pend : s_away s = false -> forall n, In n (sent s) -> stored m n ->
    In n (flat_map name_of (s_ntfn s)) \/ In n (flat_map name_of (untagged (s_nt s))) \/
    exists t p, mget (s_out s) t = Some p /\ p_name p = n;
  ip_free : s_away s = false -> forall t p, s_hand s = HFree t -> mget (s_out s) t = Some p -> ~ stored m (p_name p);
  ip_closed : s_closed s = true -> s_nt s = NDead \/ s_wdead s = true
}.

Lemma pend_step w m s s' : honest w = true -> inv_tags s -> sstep w m s s' -> inv_pend m s -> inv_pend m s'.
Proof.
  intros Ho It St [P1 P2 P3 P4]. pose proof It as [I1 I2 I3 I4 I5 I6 I7 I8 I9].
  destruct St; try congruence; constructor; unfold sent in *; ssimp; auto; try discriminate;
    repeat match goal with E : s_nt s = _ |- _ => rewrite E in *; clear E | E : s_ntfn s = _ |- _ => rewrite E in *; clear E end;
    cbn [flat_map name_of untagged app] in *; auto;
    try solve [intros X; destruct (P4 X); [discriminate|auto]].
  - (* send *) intros A n X Y. rewrite !flat_map_app, !in_app_iff in *. destruct X as [X|X]; [|auto]. destruct (P2 A n X Y) as [Z|[Z|Z]]; auto.
  - intros A n' X Y. destruct (P2 A n' X Y) as [[Z|Z]|[[]|Z]]; auto. right. left. now left.
  - (* dup *) exfalso. unfold stack in I1. rewrite H0 in I1. apply (NoDup_app_not (t :: r) _ t) in I1; [|now left].
    apply I1. apply in_or_app. left. apply mkeys_dom. congruence.
  - (* tag *) intros A n' X Y. destruct (P2 A n' X Y) as [Z|[[Z|[]]|(t' & p & Z1 & Z2)]]; auto; right; right.
    + exists t, (mkPushed t n d). split; auto. rewrite mget_mset. now destruct (eqb_spec t t).
    + exists t', p. split; auto. rewrite mget_mset. destruct (eqb_spec t' t); congruence.
  - intros A t' p E. rewrite mget_mset. destruct (eqb_spec t' t) as [Et|]; [|now apply P3].
    exfalso. apply (I5 t'); [|congruence]. unfold taken. rewrite E, !in_app_iff. cbn. auto.
  - (* hnone *) intros A t' p [= <-] X. pose proof (I7 _ _ H). congruence.
  - (* hgone *) intros A t' q [= <-] X. pose proof (I7 _ _ H) as E. rewrite X in E. injection E as ->.
    unfold stored. destruct H0 as [H0|H0]; [apply P1 in A; congruence|congruence].
  - (* hfree *) intros A n X Y. destruct (P2 A n X Y) as [Z|[Z|(t' & p & Z1 & Z2)]]; auto; right; right.
    exists t', p. split; auto. rewrite mget_mdel. destruct (eqb_spec t' t) as [E|]; auto. exfalso.
    apply (P3 A t' p); congruence.
Qed.

Lemma pend_mail w m m' : honest w = true -> clock w <> AnyTime -> inv_disk m -> inv_flow m -> in_session inv_once m ->
  in_session (fun _ => inv_tags) m -> in_session inv_pend m -> trans w m m' -> in_session inv_pend m'.
Proof.
  intros Ho C D Fl On It I T s0 E. destruct T; ssimp; try discriminate; try (injection E as <-).
  - destruct (pend_step w m s s' Ho (It s H) H0 (I s H)) as [P1 P2 P3 P4]. now constructor.
  - destruct (I s0 E) as [P1 P2 P3 P4]. now constructor.
  - destruct (m_sess m) as [s|] eqn:S; [|discriminate]. injection E as <-. destruct (I s S) as [P1 P2 P3 P4].
    destruct (pending_fresh w m i n d C D H) as (U & _ & G & _).
    assert (St : forall x, mget (mset (m_disk m) n (enc DiskMessage_codec d)) x <> None -> x = n \/ stored m x).
    { intros x. rewrite mget_mset. destruct (eqb_spec x n) as [->|]; auto. }
    constructor; unfold sent, stored in *; ssimp; auto.
    + intros A x X Y. apply P2; auto. apply St in Y as [->|Y]; auto. exfalso. apply U. apply (io_used m s (On s S)). auto.
    + intros A t p X Y Z. apply St in Z as [Z|Z]; [|now apply (P3 A t p)]. apply U. rewrite <- Z.
      destruct (if_sess m Fl s S (p_name p) (p_msg p)) as [Q|Q].
      * unfold travelling. rewrite !in_app_iff. apply mget_snd in Y. apply (in_map of_push) in Y. unfold of_push at 1 in Y. tauto.
      * unfold used. apply in_or_app. left. apply in_map_iff. now exists (p_name p, p_msg p).
      * unfold used. apply in_or_app. now right.
  - rename s0 into s; pose proof E as S. destruct (I s S) as [P1 P2 P3 P4].
    destruct (pending_fresh w m i n d C D H) as (U & _ & G & _).
    assert (St : forall x, mget (mset (m_disk m) n (firstn k (enc DiskMessage_codec d))) x <> None -> x = n \/ stored m x).
    { intros x. rewrite mget_mset. destruct (eqb_spec x n) as [->|]; auto. }
    constructor; unfold sent, stored in *; ssimp; auto.
    + intros A x X Y. apply P2; auto. apply St in Y as [->|Y]; auto. exfalso. apply U. apply (io_used m s (On s S)). auto.
    + intros A t p X Y Z. apply St in Z as [Z|Z]; [|now apply (P3 A t p)]. apply U. rewrite <- Z.
      destruct (if_sess m Fl s S (p_name p) (p_msg p)) as [Q|Q].
      * unfold travelling. rewrite !in_app_iff. apply mget_snd in Y. apply (in_map of_push) in Y. unfold of_push at 1 in Y. tauto.
      * unfold used. apply in_or_app. left. apply in_map_iff. now exists (p_name p, p_msg p).
      * unfold used. apply in_or_app. now right.
  - destruct (I s0 E) as [P1 P2 P3 P4]. now constructor.
  - destruct (m_sess m) as [s|] eqn:S; [|discriminate]. injection E as <-. destruct (I s S) as [P1 P2 P3 P4].
    constructor; ssimp; auto; discriminate.
  - destruct (I s0 E) as [P1 P2 P3 P4]. constructor; auto.
  - constructor; cbn; auto; try tauto; discriminate.
  - destruct (I s H) as [P1 P2 P3 P4].
    assert (X : m_there (match mget (s_out s) t with Some p => set_m_acked m (m_acked m ++ [p]) | None => m end) = m_there m /\
        m_disk (match mget (s_out s) t with Some p => set_m_acked m (m_acked m ++ [p]) | None => m end) = m_disk m)
      by (destruct (mget (s_out s) t); auto). destruct X as [X Y].
    constructor; unfold sent, stored in *; ssimp; rewrite ?X, ?Y; auto. discriminate.
  - destruct (I s H) as [P1 P2 P3 P4].
    assert (St : forall x, mget (mdel (m_disk m) (p_name p)) x <> None -> stored m x /\ x <> p_name p).
    { intros x. rewrite mget_mdel. destruct (eqb_spec x (p_name p)) as [->|]; [congruence|auto]. }
    constructor; unfold sent, stored in *; ssimp; auto.
    + intros A x X Y. apply P2; auto. now apply St in Y.
    + intros A t' q [= <-] X Y. apply St in Y as [_ Y]. apply Y. pose proof (it_del s (It s H) _ _ H0). congruence.
  - destruct (I s H) as [P1 P2 P3 P4]. now constructor.
Qed.

Lemma pend_reach w m : honest w = true -> clock w <> AnyTime -> reachable w m -> in_session inv_pend m.
Proof.
  intros Ho C. apply reach_inv2; [intros s; discriminate|]. intros m0 m' R I T. eapply pend_mail; eauto.
  - eapply inv_disk_reach; eauto.
  - eapply inv_flow_reach; eauto.
  - eapply once_reach; eauto.
  - eapply tags_reach; eauto.
Qed.

(** * Coming to rest *)

(** What happens by itself while an honest client is connected. *)
Definition internal (a : action) : Prop :=
  match a with AWorker | ANotify | AWriter | AHandler | AReceive | AAck _ => True | _ => False end.

Definition effort_worker (k : nat) (x : worker) : nat :=
  match x with
  | WStart => 20 * k + 22 | WSelect => 0 | WRead => 20 * k + 20
  | WScan l => 20 * length l + 1 | WOpen _ l => 20 * length l + 19 | WSend _ l => 20 * length l + 18
  end.
Definition effort_nt (x : ntfner) : nat := match x with NTag _ _ => 14 | NWrite _ => 13 | _ => 0 end.
Definition effort_hand (x : handler) : nat := match x with HDelete _ _ => 8 | HFree _ => 7 | HPush _ => 6 | HIdle => 0 end.
Definition effort (m : mail) : nat :=
  match m_sess m with
  | None => 0
  | Some s =>
      effort_worker (length (m_disk m)) (s_worker s) + (if s_work s then 20 * length (m_disk m) + 21 else 0) +
      15 * length (s_ntfn s) + effort_nt (s_nt s) + 12 * length (s_writer s) + 11 * length (s_wire s) +
      10 * length (s_recv s) + 9 * length (s_acks s) + effort_hand (s_hand s)
  end.

Lemma remove_tag_length t l : forall r, remove_tag t l = Some r -> length l = S (length r).
Proof. intros r H. apply remove_tag_perm in H as (p & _ & P). now apply Permutation_length in P. Qed.
Lemma mdel_length {K V} `{EqB K} (m : list (K * V)) k : (length (mdel m k) <= length m)%nat.
Proof. unfold mdel. induction m as [|x m IH]; cbn; [lia|]. destruct (negb _); cbn; lia. Qed.
Lemma effort_worker_mono k k' x : (k' <= k)%nat -> (effort_worker k' x <= effort_worker k x)%nat.
Proof. destruct x; cbn; lia. Qed.

Lemma effort_step w m a m' : honest w = true -> internal a -> exec w m a = Some m' -> (effort m' < effort m)%nat.
Proof.
  intros Ho Ia E. assert (OK : act_ok a) by (destruct a; cbn in *; tauto).
  destruct a; destruct Ia; cbn [exec] in E; unfold in_sess in E; destruct (m_sess m) as [s|] eqn:S; try discriminate.
  - destruct (worker_step m s) as [s'|] eqn:W; [|discriminate]. injection E as <-. unfold effort. rewrite S. ssimp. unfold worker_step in W.
    destruct (s_worker s) as [| | |[|n l]|n l|x l] eqn:K.
    + destruct (s_work s) eqn:B; [discriminate|]. injection W as <-. ssimp. cbn [effort_worker]. lia.
    + destruct (s_work s) eqn:B; [|discriminate]. injection W as <-. ssimp. cbn [effort_worker]. lia.
    + injection W as <-. ssimp. destruct (m_there m); cbn [effort_worker length].
      * rewrite (Permutation_length (lex_sort_perm _)). unfold mkeys. rewrite map_length. lia.
      * lia.
    + injection W as <-. ssimp. cbn [effort_worker length]. lia.
    + destruct (mem n (s_processed s)); injection W as <-; ssimp; cbn [effort_worker length]; lia.
    + injection W as <-. ssimp. destruct (if m_there m then mget (m_disk m) n else None) as [b|]; [destruct (read_msg b)|]; cbn [effort_worker]; lia.
    + destruct (length (s_ntfn s) <? depth)%nat; [|discriminate]. injection W as <-. ssimp. rewrite app_length. cbn [effort_worker length]. lia.
  - destruct (notify_step s) as [s'|] eqn:W; [|discriminate]. injection E as <-. unfold effort. rewrite S. ssimp. unfold notify_step in W.
    destruct (s_nt s) eqn:K.
    + destruct (s_ntfn s) as [|[n d|] r]; [discriminate| |]; injection W as <-; ssimp; cbn [effort_nt length]; lia.
    + destruct (s_free s) as [|t r]; [discriminate|]. cbn [s_out set_s_free] in W. destruct (mget (s_out s) t); injection W as <-; ssimp; cbn [effort_nt length]; lia.
    + destruct (length (s_writer s) <? depth)%nat; [|discriminate]. injection W as <-. ssimp. rewrite app_length. cbn [effort_nt length]. lia.
    + discriminate.
  - destruct (writer_step s) as [s'|] eqn:W; [|discriminate]. injection E as <-. unfold effort. rewrite S. ssimp. unfold writer_step in W.
    destruct (s_writer s) as [|p r]; [discriminate|]. destruct (s_wdead s || s_closed s); [discriminate|]. injection W as <-. ssimp. rewrite app_length. cbn [length]. lia.
  - destruct (handler_step m s) as [[m1 s']|] eqn:W; [|discriminate]. injection E as <-. unfold effort. rewrite S. ssimp. unfold handler_step in W.
    destruct (s_hand s) as [|t o|t|t] eqn:K.
    + destruct (s_closed s); [discriminate|]. destruct (s_acks s) as [|t r]; [discriminate|].
      assert (X : m_disk (match mget (s_out s) t with Some p => set_m_acked m (m_acked m ++ [p]) | None => m end) = m_disk m) by (destruct (mget (s_out s) t); auto).
      injection W as <- <-. ssimp. rewrite X. cbn [effort_hand length]. lia.
    + destruct o as [p|]; [destruct (m_there m && mhas (m_disk m) (p_name p))|]; injection W as <- <-; ssimp; cbn [effort_hand]; try lia.
      pose proof (mdel_length (m_disk m) (p_name p)) as L. pose proof (effort_worker_mono _ _ (s_worker s) L). destruct (s_work s); lia.
    + injection W as <- <-; ssimp; cbn [effort_hand]; lia.
    + destruct (length (s_free s) <? depth)%nat; [|discriminate]. injection W as <- <-; ssimp; cbn [effort_hand]; lia.
  - destruct (s_wire s) as [|p r] eqn:Q; [discriminate|]. injection E as <-. unfold effort. rewrite S. ssimp. rewrite Q, app_length. cbn [length]. lia.
  - rewrite Ho in E. destruct (remove_tag t (s_recv s)) as [r|] eqn:Q; [|discriminate]. injection E as <-. unfold effort. rewrite S. ssimp.
    rewrite (remove_tag_length _ _ _ Q), app_length. cbn [length]. lia.
Qed.

Lemma effort_run w l : honest w = true -> Forall internal l -> forall m m', execs w m l = Some m' -> (length l + effort m' <= effort m)%nat.
Proof.
  intros Ho. induction 1 as [|a l Ia F IH]; intros m m' E; cbn [execs length] in *; [injection E as <-; lia|].
  destruct (exec w m a) as [m1|] eqn:X; [|discriminate]. apply effort_step in X; auto. apply IH in E. lia.
Qed.

Lemma quiet_empty w m s : honest w = true -> clock w <> AnyTime -> reachable w m -> m_sess m = Some s ->
  (forall a, internal a -> exec w m a = None) ->
  s_away s = false -> ~ In Bad (s_notes s) -> s_wdead s = false -> (s_worker s = WStart -> s_work s = false) ->
  forall n, mget (m_disk m) n <> None -> In n (m_partial m).
Proof.
  intros Ho C R S Q Aw NB Wd St.
  pose proof (tags_reach w m Ho R s S) as It. pose proof (pend_reach w m Ho C R s S) as [P1 P2 P3 P4].
  pose proof (awake_reach w m C R s S) as [A1 A2]. destruct It as [I1 I2 I3 I4 I5 I6 I7 I8 I9].
  assert (Cl : s_closed s = false). { destruct (s_closed s) eqn:X; auto. exfalso. destruct (P4 eq_refl) as [Y|Y]; [auto|congruence]. }
  assert (Wr : s_writer s = []).
  { pose proof (Q AWriter Logic.I) as X. cbn in X. unfold in_sess in X. rewrite S in X. unfold writer_step in X.
    destruct (s_writer s); auto. rewrite Wd, Cl in X. discriminate. }
  assert (Wi : s_wire s = []).
  { pose proof (Q AReceive Logic.I) as X. cbn in X. rewrite S in X. destruct (s_wire s); [auto|discriminate]. }
  assert (Rc : s_recv s = []).
  { destruct (s_recv s) as [|p r] eqn:X; auto. pose proof (Q (AAck (p_tag p)) Logic.I) as Y. cbn in Y. unfold in_sess in Y. rewrite S, Ho, X in Y.
    cbn [remove_tag] in Y. destruct (eqb_spec (p_tag p) (p_tag p)); [discriminate|congruence]. }
  assert (Ha : s_hand s = HIdle /\ s_acks s = []).
  { pose proof (Q AHandler Logic.I) as X. cbn in X. rewrite S in X. unfold handler_step in X. destruct (s_hand s) as [|t o|t|t] eqn:K.
    - rewrite Cl in X. destruct (s_acks s); [auto|discriminate].
    - destruct o as [p|]; [destruct (m_there m && mhas (m_disk m) (p_name p))|]; discriminate.
    - discriminate.
    - destruct (Nat.ltb_spec (length (s_free s)) depth) as [|L]; [discriminate|]. exfalso. unfold stack in I2. rewrite K in I2.
      rewrite !app_length in I2. cbn [pushing length] in I2. lia. }
  destruct Ha as [Hi Hc].
  assert (Tk : taken s = map p_tag (tagged (s_nt s))). { unfold taken, flight. rewrite Wr, Wi, Rc, Hi, Hc. cbn [holding app]. now rewrite !app_nil_r. }
  assert (Nt : s_nt s = NIdle /\ s_ntfn s = []).
  { pose proof (Q ANotify Logic.I) as X. cbn in X. unfold in_sess in X. rewrite S in X. unfold notify_step in X. destruct (s_nt s) as [|n d|p|] eqn:K.
    - destruct (s_ntfn s) as [|[|] r]; [auto|discriminate|discriminate].
    - exfalso. destruct (s_free s) as [|t r] eqn:Fr.
      + cbn [tagged map] in Tk.
        assert (O : mkeys (s_out s) = []).
        { destruct (mkeys (s_out s)) as [|t l] eqn:Y; auto. exfalso. assert (Z : In t (taken s)). { apply (I6 Wd). apply mkeys_dom. rewrite Y. now left. }
          now rewrite Tk in Z. }
        unfold stack in I2. rewrite Fr, O, Hi in I2. discriminate I2.
      + cbn [s_out set_s_free] in X. destruct (mget (s_out s) t); discriminate.
    - rewrite Wr in X. discriminate.
    - exfalso. auto. }
  destruct Nt as [Ni Nf]. rewrite Ni in Tk. cbn [tagged map] in Tk.
  assert (Ou : forall t p, mget (s_out s) t = Some p -> False). { intros t p X. assert (Z : In t (taken s)) by (apply (I6 Wd); congruence). now rewrite Tk in Z. }
  assert (Wk : s_worker s = WSelect /\ s_work s = false).
  { pose proof (Q AWorker Logic.I) as X. cbn in X. unfold in_sess in X. rewrite S in X. unfold worker_step in X. destruct (s_worker s) as [| | |[|n l]|n l|x l] eqn:K.
    - rewrite (St eq_refl) in X. discriminate.
    - destruct (s_work s); [discriminate|auto].
    - discriminate.
    - discriminate.
    - destruct (mem n (s_processed s)); discriminate.
    - discriminate.
    - rewrite Nf in X. discriminate. }
  destruct Wk as [Wk Ww].
  assert (NT : ~ trouble s). { intros [X|[l X]]; [auto|congruence]. }
  intros n Sn. destruct (in_dec (list_eq_dec N.eq_dec) n (m_partial m)) as [|Np]; auto. exfalso.
  assert (In n (sent s)).
  { destruct (in_dec (list_eq_dec N.eq_dec) n (s_processed s)) as [X|X].
    - destruct (A2 n NT X Sn) as [Y|Y]; auto. rewrite Wk in Y. destruct Y.
    - exfalso. assert (Y : In n (left_of (s_worker s))) by (destruct (A1 n); auto; [split; auto|contradiction]). rewrite Wk in Y. destruct Y. }
  destruct (P2 Aw n H Sn) as [X|[X|(t & p & X & _)]]; [rewrite Nf in X; destruct X|rewrite Ni in X; destruct X|eauto].
Qed.

(** * A damaged file *)

Definition in_out (s : sessn) : list bytes :=
  flat_map name_of (s_ntfn s) ++ map fst (in_nt (s_nt s)) ++ map p_name (map snd (s_out s)) ++ map fst (in_hand (s_hand s)).
Definition inv_names (s : sessn) : Prop := forall n, In n (in_out s) -> In n (sent s).

Lemma names_step w m s s' : sstep w m s s' -> inv_names s -> inv_names s'.
Proof.
  intros St I n0 H. specialize (I n0). unfold in_out, sent in *. rewrite !in_app_iff in *.
  destruct St; ssimp; repeat match goal with E : s_nt s = _ |- _ => rewrite E in *; clear E | E : s_ntfn s = _ |- _ => rewrite E in *; clear E
    | E : s_hand s = _ |- _ => rewrite E in *; clear E end;
    cbn [flat_map name_of in_nt in_hand map fst app In] in *; try tauto.
  - rewrite !flat_map_app, !in_app_iff in *. tauto.
  - destruct H as [H|[H|[H|H]]]; try tauto. apply in_map_iff in H as (q & <- & Q). apply mset_snd in Q as [->|Q]; [tauto|].
    apply (in_map p_name) in Q. tauto.
  - destruct H as [H|[H|[H|H]]]; try tauto. apply in_map_iff in H as (q & <- & Q). apply mdel_snd in Q. apply (in_map p_name) in Q. tauto.
Qed.

Lemma names_mail w m m' : in_session (fun _ => inv_names) m -> trans w m m' -> in_session (fun _ => inv_names) m'.
Proof.
  intros I T s0 E. destruct T; ssimp; try discriminate; try (injection E as <-); eauto.
  - eapply names_step; eauto.
  - destruct (m_sess m) as [s|] eqn:S; [|discriminate]. injection E as <-. exact (I s S).
  - destruct (m_sess m) as [s|] eqn:S; [|discriminate]. injection E as <-. exact (I s S).
  - intros n X. destruct X.
  - intros n X. apply (I s H). unfold in_out in *. ssimp. rewrite !in_app_iff in *.
    destruct X as [X|[X|[X|X]]]; auto. destruct (mget (s_out s) t) as [p|] eqn:G; [|destruct X]. destruct X as [<-|[]].
    apply mget_snd in G. apply (in_map p_name) in G. auto.
  - intros n X. apply (I s H). unfold in_out in *. ssimp. rewrite !in_app_iff in *. cbn in X. tauto.
  - exact (I s H).
Qed.
Lemma names_reach w m : reachable w m -> in_session (fun _ => inv_names) m.
Proof. apply reach_inv; [intros s; discriminate|]. intros m0 m' I T. eapply names_mail; eauto. Qed.

Definition damaged (m : mail) (n : bytes) : Prop := exists b, mget (m_disk m) n = Some b /\ read_msg b = None.

Record inv_damaged (n : bytes) (s : sessn) : Prop := {
  ix_sent : ~ In n (sent s);
  ix_ready : ~ In n (ready_of (s_worker s));
  ix_before : forall l1 x d l2, s_notes s = l1 ++ Good x d :: l2 -> ~ In Bad l1 -> before x n
}.

Lemma snoc_split {A} (l : list A) x l1 y l2 : l ++ [x] = l1 ++ y :: l2 -> (l2 = [] /\ l = l1 /\ x = y) \/ exists l3, l2 = l3 ++ [x] /\ l = l1 ++ y :: l3.
Proof.
  destruct l2 as [|a l2 _] using rev_ind; intros E.
  - apply app_inj_tail in E as [-> ->]. auto.
  - right. exists l2. change (l ++ [x] = l1 ++ (y :: l2) ++ [a]) in E. rewrite app_assoc in E. apply app_inj_tail in E as [-> ->]. auto.
Qed.

Lemma damaged_step w m s s' n : sstep w m s s' -> inv_order m s -> inv_awake m s -> damaged m n -> inv_damaged n s -> inv_damaged n s'.
Proof.
  intros St [O1 O2 O3 O4 O5 O6] [A1 A2] (b0 & G & Rd) [X1 X2 X3].
  destruct St; constructor; unfold sent, trouble in *; ssimp; auto;
    repeat match goal with E : s_worker s = _ |- _ => rewrite E in *; clear E end; cbn [ready_of busy In] in *; auto.
  - intros [->|[]]. congruence.
  - (* send *) rewrite flat_map_app, in_app_iff. intros [X|X]; [auto|]. destruct x; cbn in *; tauto.
  - intros l1 x' d l2 E NB. apply snoc_split in E as [(-> & <- & ->)|(l3 & -> & E)]; [|eapply X3; eauto].
    cbn [ready_of In] in *.
    destruct (in_dec (list_eq_dec N.eq_dec) n (s_processed s)) as [P|P].
    + exfalso. destruct (A2 n) as [Y|[Y|[]]]; auto.
      * intros [Y|[l' Y]]; [auto|congruence].
      * unfold stored. congruence.
    + apply O4; [left; apply in_or_app; right; now left|]. split; auto. unfold stored. congruence.
Qed.

Lemma damaged_mail w m m' n : clock w = Increasing -> inv_disk m -> in_session inv_once m -> in_session inv_order m -> in_session inv_awake m -> trans w m m' ->
  (damaged m n -> in_session (fun _ => inv_damaged n) m) -> damaged m' n -> in_session (fun _ => inv_damaged n) m'.
Proof.
  intros C Di On Or Aw T I D s0 E.
  assert (K : forall s, m_sess m = Some s -> damaged m n -> inv_damaged n s) by (intros s X Y; apply I; auto).
  destruct T; ssimp; try discriminate; try (injection E as <-).
  - eapply damaged_step; eauto.
  - auto.
  - destruct (m_sess m) as [s|] eqn:S; [|discriminate]. injection E as <-.
    assert (D' : damaged m n).
    { destruct D as (b & G & Rd). ssimp. rewrite mget_mset in G. destruct (eqb_spec n n0) as [->|]; [|now exists b].
      assert (Eb : b = enc DiskMessage_codec d) by congruence. rewrite Eb, read_enc in Rd; [discriminate|]. destruct Di as [_ _ _ P _]. eapply P. eapply nth_error_In; eauto. }
    destruct (K s eq_refl D') as [X1 X2 X3]. now constructor.
  - destruct (On s0 E) as [N1 N2 N3 N4 N5].
    destruct (pending_fresh w m i n0 d ltac:(congruence) Di H) as (U & _ & G & _).
    destruct D as (b & Gb & Rd). ssimp. rewrite mget_mset in Gb. destruct (eqb_spec n n0) as [->|Ne].
    + constructor.
      * intros X. apply U, N5. auto.
      * intros X. apply U, N5. right. left. destruct (s_worker s0); cbn in X |- *; tauto.
      * intros l1 x dx l2 En _. unfold before. apply (H1 C). apply N5. left. unfold sent. rewrite En, flat_map_app. apply in_or_app. right. now left.
    + destruct (K s0 E ltac:(exists b; auto)) as [X1 X2 X3]. now constructor.
  - auto.
  - destruct (m_sess m) as [s|] eqn:S; [|discriminate]. injection E as <-. destruct (K s eq_refl D) as [X1 X2 X3]. now constructor.
  - auto.
  - constructor; cbn; auto. intros [|? l1] ? ? ? X; discriminate X.
  - assert (D' : damaged m n). { destruct D as (b & G & Rd). exists b. split; auto. ssimp. destruct (mget (s_out s) t); exact G. }
    destruct (K s H D') as [X1 X2 X3]. now constructor.
  - assert (D' : damaged m n). { destruct D as (b' & G & Rd). exists b'. split; auto. ssimp. rewrite mget_mdel in G. destruct (eqb n (p_name p)); [discriminate|exact G]. }
    destruct (K s H D') as [X1 X2 X3]. now constructor.
  - destruct (K s H D) as [X1 X2 X3]. now constructor.
Qed.

Lemma damaged_reach w m n : clock w = Increasing -> reachable w m -> damaged m n -> in_session (fun _ => inv_damaged n) m.
Proof.
  intros C. revert m. apply (reach_inv2 w (fun m => damaged m n -> in_session (fun _ => inv_damaged n) m)); [intros _ s; discriminate|].
  intros m0 m' R I T. eapply damaged_mail; eauto.
  - eapply inv_disk_reach; eauto. congruence.
  - eapply once_reach; eauto. congruence.
  - eapply order_reach; eauto.
  - eapply awake_reach; eauto. congruence.
Qed.

Lemma damaged_stays w m m' n b : clock w = Increasing -> reachable w m -> mget (m_disk m) n = Some b -> read_msg b = None -> trans w m m' ->
  mget (m_disk m') n = Some b.
Proof.
  intros C R G Rd T. assert (C' : clock w <> AnyTime) by congruence. pose proof (inv_disk_reach w m C' R) as D.
  assert (Dm : damaged m n) by (exists b; auto).
  destruct T; ssimp; auto.
  - rewrite mget_mset. destruct (eqb_spec n n0) as [->|]; auto. destruct (pending_fresh w m i n0 d C' D H) as (_ & _ & X & _). congruence.
  - rewrite mget_mset. destruct (eqb_spec n n0) as [->|]; auto. destruct (pending_fresh w m i n0 d C' D H) as (_ & _ & X & _). congruence.
  - rewrite mget_mset. destruct (eqb_spec n n0) as [->|]; auto. destruct (pending_fresh w m i n0 d C' D H) as (_ & _ & X & _). congruence.
  - destruct (mget (s_out s) t); auto.
  - rewrite mget_mdel. destruct (eqb_spec n (p_name p)) as [E|]; auto. exfalso.
    destruct (damaged_reach w m n C R Dm s H) as [X1 _ _]. apply X1. apply (names_reach w m R s H).
    unfold in_out. rewrite H0, !in_app_iff. right. right. right. left. now symmetry.
Qed.
