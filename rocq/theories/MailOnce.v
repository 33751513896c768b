(** Each message is offered once, in order, and none is overlooked: invariants. *)
From Verif Require Import Base IniModel IniMemProofs IniDiskProofs XdrModel XdrProofs RpcModel RpcProofs MailModel MailProofs.
Local Open Scope N_scope.

Ltac ssimp_in H := cbn [s_work s_worker s_processed s_ntfn s_nt s_free s_out s_writer s_wdead s_wire s_recv s_acks s_hand s_closed s_notes s_rcvd s_away
    set_s_work set_s_worker set_s_processed set_s_ntfn set_s_nt set_s_free set_s_out set_s_writer set_s_wdead set_s_wire set_s_recv set_s_acks
    set_s_hand set_s_closed set_s_notes set_s_rcvd set_s_away
    m_disk m_there m_pending m_sess m_done m_partial m_got m_acked
    set_m_disk set_m_there set_m_pending set_m_sess set_m_done set_m_partial set_m_got set_m_acked] in H.
Ltac ssimp := cbn [s_work s_worker s_processed s_ntfn s_nt s_free s_out s_writer s_wdead s_wire s_recv s_acks s_hand s_closed s_notes s_rcvd s_away
    set_s_work set_s_worker set_s_processed set_s_ntfn set_s_nt set_s_free set_s_out set_s_writer set_s_wdead set_s_wire set_s_recv set_s_acks
    set_s_hand set_s_closed set_s_notes set_s_rcvd set_s_away
    m_disk m_there m_pending m_sess m_done m_partial m_got m_acked
    set_m_disk set_m_there set_m_pending set_m_sess set_m_done set_m_partial set_m_got set_m_acked] in *.

(** The names offered so far, the name the worker is busy with, and those it has
    still to look at. *)
Definition name_of (x : note) : list bytes := match x with Good n _ => [n] | Bad => [] end.
Definition sent (s : sessn) : list bytes := flat_map name_of (s_notes s).
Definition busy (k : worker) : list bytes := match k with WOpen n _ => [n] | WSend (Good n _) _ => [n] | _ => [] end.
Definition left_of (k : worker) : list bytes := match k with WScan l | WOpen _ l | WSend _ l => l | _ => [] end.
Definition scanning (k : worker) : bool := match k with WScan _ | WOpen _ _ | WSend _ _ => true | _ => false end.
Definition stored (m : mail) (n : bytes) : Prop := mget (m_disk m) n <> None.
Definition open_of (k : worker) : list bytes := match k with WOpen n _ => [n] | _ => [] end.
Definition ready_of (k : worker) : list bytes := match k with WSend (Good n _) _ => [n] | _ => [] end.

Lemma sent_snoc s x : flat_map name_of (s_notes s ++ [x]) = sent s ++ name_of x.
Proof. unfold sent. rewrite flat_map_app. cbn [flat_map]. now rewrite app_nil_r. Qed.

Record inv_once (m : mail) (s : sessn) : Prop := {
  io_nodup : NoDup (sent s);
  io_proc : forall n, In n (sent s) \/ In n (busy (s_worker s)) -> In n (s_processed s) \/ mget (m_disk m) n = None;
  io_open : forall n, In n (open_of (s_worker s)) -> In n (sent s) -> mget (m_disk m) n = None;
  io_ready : forall n, In n (ready_of (s_worker s)) -> ~ In n (sent s);
  io_used : forall n, In n (sent s) \/ In n (busy (s_worker s)) \/ In n (left_of (s_worker s)) \/ In n (s_processed s) -> In n (used m)
}.

Lemma stored_used m n : inv_disk m -> stored m n -> In n (used m).
Proof.
  intros [_ _ F _ _] S. unfold stored in S. destruct (mget (m_disk m) n) as [b|] eqn:E; [|congruence].
  unfold used. apply in_or_app. apply F in E as [(d & I & _)|I]; [left|now right]. apply in_map_iff. now exists (n, d).
Qed.
Lemma mkeys_stored m n : In n (mkeys (m_disk m)) <-> stored m n.
Proof. unfold stored. split; [intros I E; now apply mget_None in E|]. intros S. destruct (mget (m_disk m) n) eqn:E; [now apply mget_Some_keys in E|congruence]. Qed.
Lemma lex_sort_In x l : In x (lex_sort l) <-> In x l.
Proof. split; apply Permutation_in; [|symmetry]; apply lex_sort_perm. Qed.

Lemma NoDup_snoc {A} (l : list A) x : NoDup l -> ~ In x l -> NoDup (l ++ [x]).
Proof.
  intros N H. apply (Permutation_NoDup (l := x :: l)); [|now constructor].
  change (x :: l) with ([x] ++ l). apply Permutation_app_comm.
Qed.

Lemma used_write m i n d p : used (mkMail (mset (m_disk m) n (enc DiskMessage_codec d)) true (drop i (m_pending m)) p
                 (m_done m ++ [(n, d)]) (m_partial m) (m_got m) (m_acked m)) = map fst (m_done m) ++ n :: m_partial m.
Proof. unfold used. ssimp. rewrite map_app, <- app_assoc. reflexivity. Qed.
Lemma used_write_In m n x : In x (used m) -> In x (map fst (m_done m) ++ n :: m_partial m).
Proof. unfold used. rewrite !in_app_iff. cbn [In]. tauto. Qed.

Lemma used_cut m i k n d p : used (mkMail (mset (m_disk m) n (firstn k (enc DiskMessage_codec d))) true (drop i (m_pending m)) p
                 (m_done m) (m_partial m ++ [n]) (m_got m) (m_acked m)) = used m ++ [n].
Proof. unfold used. ssimp. now rewrite app_assoc. Qed.

Lemma once_step w m s s' : clock w <> AnyTime -> inv_disk m -> sstep w m s s' -> inv_once m s -> inv_once m s'.
Proof.
  intros C D St [I1 I2 I3 I4 I5].
  destruct St; constructor; unfold sent in *; ssimp; auto;
    repeat match goal with E : _ s = _ |- _ => rewrite E in *; clear E end; cbn [busy left_of open_of ready_of] in *; auto.
  all: try solve [intros; apply I2 + apply I5 + apply I3; cbn [In] in *; tauto].
  - (* read *) intros n' X. rewrite lex_sort_In in X. destruct X as [X|[[]|[X|X]]]; auto. now apply stored_used, mkeys_stored.
  - (* mark *) intros n' X. cbn [In] in *. destruct X as [X|[X|[]]]; auto. destruct (I2 n' (or_introl X)); tauto.
  - intros n' [<-|[]] X. destruct (I2 n) as [Y|Y]; tauto.
  - (* open *) intros n' [<-|[]] X. apply I3 in X; [congruence|now left].
  - (* send *) rewrite flat_map_app. destruct x as [n d|]; cbn [flat_map name_of app]; [|now rewrite app_nil_r].
    apply NoDup_snoc; auto. apply I4. now left.
  - intros n' X. rewrite flat_map_app, in_app_iff in X. apply I2. destruct x; cbn in X |- *; tauto.
  - intros n' X. rewrite flat_map_app, in_app_iff in X. apply I5. destruct x; cbn in X |- *; tauto.
Qed.

Definition in_session (P : mail -> sessn -> Prop) (m : mail) : Prop := forall s, m_sess m = Some s -> P m s.

Lemma once_mail w m m' : clock w <> AnyTime -> inv_disk m -> in_session inv_once m -> trans w m m' -> in_session inv_once m'.
Proof.
  intros C D I T s0 E. destruct T; ssimp; try discriminate.
  - injection E as <-. pose proof (once_step w m s s' C D H0 (I s H)) as [I1 I2 I3 I4 I5]. now constructor.
  - destruct (I _ E) as [I1 I2 I3 I4 I5]. now constructor.
  - destruct (m_sess m) as [s|] eqn:S; [|discriminate]. injection E as <-. destruct (I _ S) as [I1 I2 I3 I4 I5].
    destruct (pending_fresh w m i n d C D H) as (U & _ & G & _).
    constructor; unfold sent in *; ssimp; auto; intros n' X.
    + rewrite mget_mset. destruct (eqb_spec n' n) as [->|]; auto. exfalso. apply U, I5. tauto.
    + intros Y. rewrite mget_mset. destruct (eqb_spec n' n) as [->|]; auto. exfalso. apply U, I5. tauto.
    + rewrite used_write. apply used_write_In. auto.
  - destruct (I _ E) as [I1 I2 I3 I4 I5].
    destruct (pending_fresh w m i n d C D H) as (U & _ & G & _).
    constructor; unfold sent in *; ssimp; auto; intros n' X.
    + rewrite mget_mset. destruct (eqb_spec n' n) as [->|]; auto. exfalso. apply U, I5. tauto.
    + intros Y. rewrite mget_mset. destruct (eqb_spec n' n) as [->|]; auto. exfalso. apply U, I5. tauto.
    + rewrite used_cut. apply in_or_app. left. auto.
  - destruct (I _ E) as [I1 I2 I3 I4 I5]. now constructor.
  - destruct (m_sess m) as [s|] eqn:S; [|discriminate]. injection E as <-. destruct (I _ S) as [I1 I2 I3 I4 I5]. now constructor.
  - destruct (I _ E) as [I1 I2 I3 I4 I5]. now constructor.
  - injection E as <-. constructor; cbn; try tauto. apply NoDup_nil.
  - injection E as <-. destruct (I _ H) as [I1 I2 I3 I4 I5]. destruct (mget (s_out s) t); now constructor.
  - injection E as <-. destruct (I _ H) as [I1 I2 I3 I4 I5].
    constructor; unfold sent in *; ssimp; auto; intros n' X.
    + rewrite filter_In, mget_mdel. destruct (eqb n' (p_name p)); [now right|]. destruct (I2 n' X); auto.
    + intros Y. rewrite mget_mdel. destruct (eqb n' (p_name p)); auto.
    + apply I5. rewrite filter_In in X. tauto.
  - injection E as <-. destruct (I _ H) as [I1 I2 I3 I4 I5]. now constructor.
Qed.

Lemma once_reach w m : clock w <> AnyTime -> reachable w m -> in_session inv_once m.
Proof.
  intros C. apply reach_inv2; [intros s; discriminate|]. intros m0 m' R I T. eapply once_mail; eauto. eapply inv_disk_reach; eauto.
Qed.

(** * Order *)

Definition before (a b : bytes) : Prop := lex_leb b a = false.

Lemma before_le a b : before a b -> lex_leb a b = true.
Proof. unfold before. intros H. destruct (lex_leb_total a b); congruence. Qed.
Lemma before_trans a b c : before a b -> before b c -> before a c.
Proof.
  intros H1 H2. unfold before in *. destruct (lex_leb c a) eqn:E; auto. rewrite <- H2.
  symmetry. apply (lex_leb_trans c a b); auto. now apply before_le.
Qed.
Lemma before_neq a b : lex_leb a b = true -> a <> b -> before a b.
Proof. intros L N. unfold before. destruct (lex_leb b a) eqn:E; auto. exfalso. apply N. now apply lex_leb_antisym. Qed.
Lemma before_irrefl a : ~ before a a.
Proof. unfold before. now rewrite lex_leb_refl. Qed.

(** A name still stored and not yet marked. *)
Definition waiting (m : mail) (s : sessn) (n : bytes) : Prop := stored m n /\ ~ In n (s_processed s).

Record inv_order (m : mail) (s : sessn) : Prop := {
  ir_sent : StronglySorted before (sent s);
  ir_open : forall n x, In n (open_of (s_worker s)) -> stored m n -> In x (sent s) -> before x n;
  ir_ready : forall n x, In n (ready_of (s_worker s)) -> In x (sent s) -> before x n;
  ir_wait : forall x y, In x (sent s ++ ready_of (s_worker s)) \/ (In x (open_of (s_worker s)) /\ stored m x) -> waiting m s y -> before x y;
  ir_left : StronglySorted before (left_of (s_worker s));
  ir_scan : forall y, scanning (s_worker s) = true -> waiting m s y -> In y (left_of (s_worker s)) \/ forall z, In z (left_of (s_worker s)) -> before z y
}.

Lemma SS_before_snoc l x : StronglySorted before l -> (forall y, In y l -> before y x) -> StronglySorted before (l ++ [x]).
Proof.
  induction l as [|a l IH]; intros S H; cbn; [now repeat constructor|]. inversion S; subst. constructor.
  - apply IH; auto. intros y Y. apply H. now right.
  - apply Forall_app. split; auto. constructor; [apply H; now left|constructor].
Qed.
Lemma SS_strict l : NoDup l -> StronglySorted lex_le l -> StronglySorted before l.
Proof.
  induction l as [|a l IH]; intros N S; [constructor|]. inversion N; inversion S; subst. constructor; auto.
  rewrite Forall_forall in *. intros x X. apply before_neq; [now apply H6|]. intros ->. auto.
Qed.

Lemma order_step w m s s' : clock w <> AnyTime -> inv_disk m -> sstep w m s s' -> inv_once m s -> inv_order m s -> inv_order m s'.
Proof.
  intros C D St [I1 I2 I3 I4 I5] [O1 O2 O3 O4 O5 O6].
  destruct St; constructor; unfold sent, waiting in *; ssimp; auto;
    repeat match goal with E : _ s = _ |- _ => rewrite E in *; clear E end; cbn [busy left_of open_of ready_of scanning] in *; auto.
  all: try solve [cbn [In]; intros; tauto]. all: try solve [constructor]. all: try discriminate.
  - (* read *) apply SS_strict; [|apply lex_sort_sorted]. eapply Permutation_NoDup; [symmetry; apply lex_sort_perm|]. now destruct D.
  - intros y _ [Y _]. left. now rewrite lex_sort_In, mkeys_stored.
  - (* skip *) now inversion O5.
  - intros y _ Y. destruct (O6 y eq_refl Y) as [[<-|Z]|Z]; auto; [tauto|]. right. intros z Hz. apply Z. now right.
  - (* mark *) intros n' x [<-|[]] S X. apply O4; [rewrite in_app_iff; auto|]. auto.
  - intros x y X [Y1 Y2]. destruct X as [X|[[<-|[]] X]].
    + apply O4; [now left|]. split; auto. intros Z. apply Y2. now right.
    + assert (y <> n) by (intros ->; apply Y2; now left). inversion O5 as [|? ? S1 F1]; subst. rewrite Forall_forall in F1.
      destruct (O6 y eq_refl) as [[Z|Z]|Z]; [split; auto; intros Z; apply Y2; now right|congruence|auto|]. apply Z. now left.
  - now inversion O5.
  - intros y _ [Y1 Y2]. destruct (O6 y eq_refl) as [[Z|Z]|Z]; [split; auto; intros Z; apply Y2; now right| |auto|].
    + exfalso. apply Y2. now left.
    + right. intros z Hz. apply Z. now right.
  - (* bad *) intros x y X Y. apply O4; auto. rewrite in_app_iff in *. cbn [In] in *. tauto.
  - (* open *) intros n' x [<-|[]] X. apply O2; auto; [now left|]. unfold stored. congruence.
  - intros x y X Y. apply O4; auto. rewrite app_nil_r, in_app_iff in *. cbn [In] in *. destruct X as [[X|[<-|[]]]|[[] _]]; auto.
    right. split; auto. unfold stored. congruence.
  - (* send *) rewrite flat_map_app. destruct x as [n d|]; cbn [flat_map name_of app ready_of] in *; [|now rewrite app_nil_r].
    apply SS_before_snoc; auto. intros y Y. apply O3; auto. now left.
  - intros x' y X Y. apply O4; auto. rewrite flat_map_app in X. destruct x as [n d|]; cbn [flat_map name_of app ready_of In] in *;
    rewrite ?app_nil_r, ?in_app_iff in *; cbn [In] in *; tauto.
Qed.

Lemma order_mail w m m' : clock w = Increasing -> inv_disk m -> in_session inv_once m -> in_session inv_order m -> trans w m m' -> in_session inv_order m'.
Proof.
  intros C D N I T s0 E. assert (C' : clock w <> AnyTime) by congruence. destruct T; ssimp; try discriminate.
  - injection E as <-. pose proof (order_step w m s s' C' D H0 (N s H) (I s H)) as [I1 I2 I3 I4 I5 I6]. now constructor.
  - destruct (I _ E) as [I1 I2 I3 I4 I5 I6]. now constructor.
  - destruct (m_sess m) as [s|] eqn:S; [|discriminate]. injection E as <-. destruct (I _ S) as [I1 I2 I3 I4 I5 I6].
    destruct (N _ S) as [N1 N2 N3 N4 N5].
    destruct (pending_fresh w m i n d C' D H) as (U & _ & G & _).
    assert (St : forall x, mget (mset (m_disk m) n (enc DiskMessage_codec d)) x <> None -> x = n \/ stored m x).
    { intros x. rewrite mget_mset. destruct (eqb_spec x n) as [->|]; auto. }
    assert (B : forall x, In x (used m) -> before x n) by (intros x X; now apply H1).
    assert (Us : forall x, In x (open_of (s_worker s)) \/ In x (ready_of (s_worker s)) -> In x (busy (s_worker s))).
    { intros x. destruct (s_worker s); cbn; try tauto. }
    constructor; unfold sent, waiting, stored in *; ssimp; auto.
    + intros n' x X Y Z. apply I2; auto. apply St in Y as [->|Y]; auto. exfalso. apply U, N5. right. left. auto.
    + intros x y X [Y1 Y2]. apply St in Y1 as [->|Y1].
      * apply B, N5. rewrite in_app_iff in X. destruct X as [[X|X]|[X _]]; auto.
      * apply I4; [|now split]. destruct X as [X|[X1 X2]]; auto. right. split; auto. apply St in X2 as [->|X2]; auto.
        exfalso. apply U, N5. right. left. auto.
    + intros y X [Y1 Y2]. apply St in Y1 as [->|Y1]; [|auto]. right. intros z Hz. apply B, N5. auto.
  - rename s0 into s; pose proof E as S. destruct (I _ S) as [I1 I2 I3 I4 I5 I6].
    destruct (N _ S) as [N1 N2 N3 N4 N5].
    destruct (pending_fresh w m i n d C' D H) as (U & _ & G & _).
    assert (St : forall x, mget (mset (m_disk m) n (firstn k (enc DiskMessage_codec d))) x <> None -> x = n \/ stored m x).
    { intros x. rewrite mget_mset. destruct (eqb_spec x n) as [->|]; auto. }
    assert (B : forall x, In x (used m) -> before x n) by (intros x X; now apply H1).
    assert (Us : forall x, In x (open_of (s_worker s)) \/ In x (ready_of (s_worker s)) -> In x (busy (s_worker s))).
    { intros x. destruct (s_worker s); cbn; try tauto. }
    constructor; unfold sent, waiting, stored in *; ssimp; auto.
    + intros n' x X Y Z. apply I2; auto. apply St in Y as [->|Y]; auto. exfalso. apply U, N5. right. left. auto.
    + intros x y X [Y1 Y2]. apply St in Y1 as [->|Y1].
      * apply B, N5. rewrite in_app_iff in X. destruct X as [[X|X]|[X _]]; auto.
      * apply I4; [|now split]. destruct X as [X|[X1 X2]]; auto. right. split; auto. apply St in X2 as [->|X2]; auto.
        exfalso. apply U, N5. right. left. auto.
    + intros y X [Y1 Y2]. apply St in Y1 as [->|Y1]; [|auto]. right. intros z Hz. apply B, N5. auto.
  - destruct (I _ E) as [I1 I2 I3 I4 I5 I6]. now constructor.
  - destruct (m_sess m) as [s|] eqn:S; [|discriminate]. injection E as <-. destruct (I _ S) as [I1 I2 I3 I4 I5 I6]. now constructor.
  - destruct (I _ E) as [I1 I2 I3 I4 I5 I6]. now constructor.
  - injection E as <-. constructor; cbn; try tauto; try constructor.
  - injection E as <-. destruct (I _ H) as [I1 I2 I3 I4 I5 I6]. destruct (mget (s_out s) t); now constructor.
  - injection E as <-. destruct (I _ H) as [I1 I2 I3 I4 I5 I6].
    assert (St : forall x, mget (mdel (m_disk m) (p_name p)) x <> None -> stored m x /\ x <> p_name p).
    { intros x. rewrite mget_mdel. destruct (eqb_spec x (p_name p)) as [->|]; [congruence|auto]. }
    assert (W : forall x, mget (mdel (m_disk m) (p_name p)) x <> None /\ ~ In x (filter (fun x => negb (eqb x (p_name p))) (s_processed s)) -> waiting m s x).
    { intros x [X1 X2]. apply St in X1 as [X1 X3]. split; auto. intros X4. apply X2. apply filter_In. split; auto.
      destruct (eqb_spec x (p_name p)); [congruence|reflexivity]. }
    constructor; unfold sent, waiting, stored in *; ssimp; auto.
    + intros n' x X Y. apply I2; auto. now apply St in Y.
    + intros x y X Y. apply I4; auto. destruct X as [X|[X1 X2]]; auto. right. split; auto. now apply St in X2.
  - injection E as <-. destruct (I _ H) as [I1 I2 I3 I4 I5 I6]. now constructor.
Qed.

Lemma order_reach w m : clock w = Increasing -> reachable w m -> in_session inv_order m.
Proof.
  intros C. apply reach_inv2; [intros s; discriminate|]. intros m0 m' R I T. eapply order_mail; eauto.
  - eapply inv_disk_reach; eauto. congruence.
  - eapply once_reach; eauto. congruence.
Qed.

(** * Nothing is overlooked *)

Definition trouble (s : sessn) : Prop := In Bad (s_notes s) \/ exists l, s_worker s = WSend Bad l.

Record inv_awake (m : mail) (s : sessn) : Prop := {
  ia_wait : forall y, ~ trouble s -> s_work s = false -> s_worker s = WSelect \/ scanning (s_worker s) = true ->
    waiting m s y -> In y (left_of (s_worker s)) \/ In y (m_partial m);
  ia_done : forall n, ~ trouble s -> In n (s_processed s) -> stored m n -> In n (sent s) \/ In n (busy (s_worker s))
}.

Lemma awake_step w m s s' : clock w <> AnyTime -> inv_disk m -> sstep w m s s' -> inv_once m s -> inv_awake m s -> inv_awake m s'.
Proof.
  intros C D St [I1 I2 I3 I4 I5] [A1 A2].
  destruct St; constructor; unfold sent, waiting, trouble in *; ssimp; auto;
    repeat match goal with E : _ s = _ |- _ => rewrite E in *; clear E end; cbn [busy left_of open_of ready_of scanning] in *; auto;
    try discriminate.
  all: try solve [intros n' Tr; (apply A2 || (intros ? ?; apply A1)); auto; intros [X|[l' X]]; [auto|discriminate]].
  all: try solve [intros n' Tr; exfalso; apply Tr; right; eauto].
  - intros n' _ _ [|]; discriminate.
  - intros y _ _ _ [Y _]. left. now rewrite lex_sort_In, mkeys_stored.
  - intros y Tr W _ [Y1 Y2]. destruct (A1 y) as [[<-|]|]; auto; [|tauto]. intros [X|[l' X]]; [auto|discriminate].
  - intros y Tr W _ [Y1 Y2]. destruct (A1 y) as [[<-|]|]; auto.
    + intros [X|[l' X]]; [auto|discriminate].
    + split; auto. intros X. apply Y2. now right.
    + exfalso. apply Y2. now left.
  - intros n' Tr [<-|X] Y; [right; now left|]. left. destruct (A2 n') as [|[]]; auto. intros [Z|[l' Z]]; [auto|discriminate].
  - intros y Tr W _ Y. apply A1; auto. intros [Z|[l' [= ->]]]; apply Tr; left; apply in_or_app; auto. right. now left.
  - intros n' Tr X Y. rewrite flat_map_app, in_app_iff. destruct (A2 n') as [Z|Z]; auto.
    + intros [Z|[l' [= ->]]]; apply Tr; left; apply in_or_app; auto. right. now left.
    + destruct x; cbn in *; tauto.
Qed.

Lemma awake_mail w m m' : clock w <> AnyTime -> inv_disk m -> in_session inv_once m -> in_session inv_awake m -> trans w m m' -> in_session inv_awake m'.
Proof.
  intros C D N I T s0 E. destruct T; ssimp; try discriminate.
  - injection E as <-. pose proof (awake_step w m s s' C D H0 (N s H) (I s H)) as [I1 I2]. now constructor.
  - destruct (I _ E) as [I1 I2]. now constructor.
  - destruct (m_sess m) as [s|] eqn:S; [|discriminate]. injection E as <-. destruct (I _ S) as [I1 I2].
    destruct (N _ S) as [N1 N2 N3 N4 N5].
    destruct (pending_fresh w m i n d C D H) as (U & _ & G & _).
    assert (St : forall x, mget (mset (m_disk m) n (enc DiskMessage_codec d)) x <> None -> x = n \/ stored m x).
    { intros x. rewrite mget_mset. destruct (eqb_spec x n) as [->|]; auto. }
    constructor; unfold sent, waiting, stored, trouble in *; ssimp; auto; [discriminate|].
    intros x X Y Z. apply I2; auto. apply St in Z as [->|Z]; auto. exfalso. apply U, N5. auto.
  - rename s0 into s; pose proof E as S. destruct (I _ S) as [I1 I2].
    destruct (N _ S) as [N1 N2 N3 N4 N5].
    destruct (pending_fresh w m i n d C D H) as (U & _ & G & _).
    assert (St : forall x, mget (mset (m_disk m) n (firstn k (enc DiskMessage_codec d))) x <> None -> x = n \/ stored m x).
    { intros x. rewrite mget_mset. destruct (eqb_spec x n) as [->|]; auto. }
    constructor; unfold sent, waiting, stored, trouble in *; ssimp; auto.
    { intros y X Y1 Y2 [Y3 Y4]. apply St in Y3 as [->|Y3]; [right; apply in_or_app; right; now left|].
      destruct (I1 y X Y1 Y2 (conj Y3 Y4)) as [Z|Z]; auto. right. apply in_or_app. now left. }
    intros x X Y Z. apply I2; auto. apply St in Z as [->|Z]; auto. exfalso. apply U, N5. auto.
  - destruct (I _ E) as [I1 I2]. now constructor.
  - destruct (m_sess m) as [s|] eqn:S; [|discriminate]. injection E as <-. destruct (I _ S) as [I1 I2]. now constructor.
  - destruct (I _ E) as [I1 I2]. now constructor.
  - injection E as <-. constructor; cbn; try tauto. intros y _ _ [|]; discriminate.
  - injection E as <-. destruct (I _ H) as [I1 I2]. destruct (mget (s_out s) t); now constructor.
  - injection E as <-. destruct (I _ H) as [I1 I2].
    assert (St : forall x, mget (mdel (m_disk m) (p_name p)) x <> None -> stored m x /\ x <> p_name p).
    { intros x. rewrite mget_mdel. destruct (eqb_spec x (p_name p)) as [->|]; [congruence|auto]. }
    assert (W : forall x, mget (mdel (m_disk m) (p_name p)) x <> None /\ ~ In x (filter (fun x => negb (eqb x (p_name p))) (s_processed s)) -> waiting m s x).
    { intros x [X1 X2]. apply St in X1 as [X1 X3]. split; auto. intros X4. apply X2. apply filter_In. split; auto.
      destruct (eqb_spec x (p_name p)); [congruence|reflexivity]. }
    constructor; unfold sent, waiting, stored, trouble in *; ssimp; auto.
    intros n' Tr X Y. apply I2; auto; [now apply filter_In in X|now apply St in Y].
  - injection E as <-. destruct (I _ H) as [I1 I2]. now constructor.
Qed.

Lemma awake_reach w m : clock w <> AnyTime -> reachable w m -> in_session inv_awake m.
Proof.
  intros C. apply reach_inv2; [intros s; discriminate|]. intros m0 m' R I T. eapply awake_mail; eauto.
  - eapply inv_disk_reach; eauto.
  - eapply once_reach; eauto.
Qed.

(** * What the client receives is a beginning of what was offered *)

Definition offer (p : pushed) : note := Good (p_name p) (p_msg p).
Definition tagged (x : ntfner) : list pushed := match x with NWrite p => [p] | _ => [] end.
Definition untagged (x : ntfner) : list note := match x with NTag n d => [Good n d] | _ => [] end.

Definition inv_chain (s : sessn) : Prop :=
  exists rest, s_notes s = map offer (s_rcvd s ++ s_wire s) ++ rest /\
    (s_wdead s = false -> exists rest', rest = map offer (s_writer s ++ tagged (s_nt s)) ++ rest' /\
      (s_nt s <> NDead -> rest' = untagged (s_nt s) ++ s_ntfn s)).

Lemma chain_step w m s s' : sstep w m s s' -> inv_chain s -> inv_chain s'.
Proof.
  intros St (rest & E & R). destruct St; unfold inv_chain; ssimp; try (exists rest; split; [exact E|]); auto.
  - (* send *) exists (rest ++ [x]). split; [rewrite E; now rewrite app_assoc|]. intros W.
    destruct (R W) as (rest' & -> & R'). exists (rest' ++ [x]). split; [now rewrite app_assoc|]. intros N. rewrite (R' N). now rewrite app_assoc.
  - intros W. destruct (R W) as (rest' & -> & R'). rewrite H. exists rest'. split; auto. now intros [].
  - intros W. destruct (R W) as (rest' & -> & R'). rewrite H. exists rest'. split; auto. intros _. rewrite R'; [|congruence].
    now rewrite H, H0.
  - intros W. destruct (R W) as (rest' & -> & R'). rewrite H. exists rest'. split; auto. now intros [].
  - intros W. destruct (R W) as (rest' & -> & R'). rewrite H in *. exists (s_ntfn s). cbn [tagged untagged] in *.
    rewrite R' by discriminate. rewrite app_nil_r, map_app, <- app_assoc. auto.
  - intros W. destruct (R W) as (rest' & -> & R'). rewrite H in *. exists rest'. cbn [tagged untagged] in *. rewrite app_nil_r. split; auto.
    intros _. now apply R'.
  - (* write *) destruct (R H0) as (rest' & -> & R'). rewrite H in *. exists (map offer (r ++ tagged (s_nt s)) ++ rest'). split; [|eauto].
    rewrite E. rewrite app_assoc, !map_app. cbn [map]. rewrite <- !app_assoc. cbn [app]. reflexivity.
  - discriminate.
Qed.

Lemma chain_mail w m m' : in_session (fun _ => inv_chain) m -> trans w m m' -> in_session (fun _ => inv_chain) m'.
Proof.
  intros I T s0 E. destruct T; ssimp; try discriminate; try (injection E as <-); eauto.
  - eapply chain_step; eauto.
  - destruct (m_sess m) as [s|] eqn:S; [|discriminate]. injection E as <-. now apply (I s).
  - destruct (m_sess m) as [s|] eqn:S; [|discriminate]. injection E as <-. now apply (I s).
  - exists []. cbn. split; auto. intros _. now exists [].
  - now apply (I s).
  - now apply (I s).
  - destruct (I s H) as (rest & E & R). exists rest. ssimp. rewrite H0 in E. split; auto. rewrite E. now rewrite <- app_assoc.
Qed.

Lemma chain_reach w m : reachable w m -> in_session (fun _ => inv_chain) m.
Proof. apply reach_inv; [intros s; discriminate|]. intros m0 m' I T. eapply chain_mail; eauto. Qed.
