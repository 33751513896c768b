(** The mailbox with a size limit: proofs. *)
From Verif Require Import Base IniModel IniMemProofs IniDiskProofs XdrModel XdrProofs RpcModel RpcProofs MailModel MailProofs MailOnce MailKept SizeModel SizeProofs SizeProps.
Local Open Scope N_scope.

Lemma exec_lim_exec lim w m a m' : exec_lim lim w m a = Some m' -> exec w m a = Some m'.
Proof.
  destruct a; cbn [exec_lim]; auto. destruct (m_sess m) as [s|]; [|discriminate]. destruct (s_writer s) as [|p l]; [discriminate|].
  destruct (passable lim (p_msg p)); [auto|discriminate].
Qed.
Lemma execs_lim_execs lim w l : forall m m', execs_lim lim w m l = Some m' -> execs w m l = Some m'.
Proof.
  induction l as [|a l IH]; intros m m' E; cbn in *; auto. destruct (exec_lim lim w m a) as [m1|] eqn:X; [|discriminate].
  rewrite (exec_lim_exec _ _ _ _ _ X). auto.
Qed.
Lemma execs_lim_app lim w l1 : forall m l2, execs_lim lim w m (l1 ++ l2) = match execs_lim lim w m l1 with Some m1 => execs_lim lim w m1 l2 | None => None end.
Proof. induction l1 as [|a l1 IH]; intros m l2; cbn; auto. destruct (exec_lim lim w m a); auto. Qed.

(** Induction over the runs with a limit. *)
Lemma lim_inv lim w (P : mail -> Prop) : P empty_mail ->
  (forall m a m', reachable w m -> P m -> act_ok a -> exec_lim lim w m a = Some m' -> P m') ->
  forall l m, Forall act_ok l -> execs_lim lim w empty_mail l = Some m -> P m.
Proof.
  intros P0 St l. induction l as [|a l IH] using rev_ind; intros m F E; [now injection E as <-|].
  apply Forall_app in F as [F1 F2]. rewrite execs_lim_app in E. destruct (execs_lim lim w empty_mail l) as [m1|] eqn:X; [|discriminate].
  cbn [execs_lim] in E. destruct (exec_lim lim w m1 a) as [m2|] eqn:Y; [|discriminate]. injection E as <-.
  apply (St m1 a m2); auto; [|now inversion F2]. exists l. split; auto. eapply execs_lim_execs; eauto.
Qed.

(** * Only what fits is written *)

Definition wires (m : mail) : list pushed := match m_sess m with Some s => s_wire s | None => [] end.

Lemma some_eq {A} (x y : A) : Some x = Some y -> y = x.
Proof. now intros [= ->]. Qed.
Ltac cases_in E := repeat match type of E with
    | Some ?x = Some ?y => apply some_eq in E
    | None = Some _ => discriminate E
    | (match ?x with _ => _ end) = _ => destruct x eqn:?
    end.
Lemma worker_wire m s s' : worker_step m s = Some s' -> s_wire s' = s_wire s.
Proof. intros E. unfold worker_step in E. cases_in E; subst s'; reflexivity. Qed.
Lemma notify_wire s s' : notify_step s = Some s' -> s_wire s' = s_wire s.
Proof. intros E. unfold notify_step in E. cases_in E; subst s'; reflexivity. Qed.
Lemma fail_wire s s' : writer_fail s = Some s' -> s_wire s' = s_wire s.
Proof. intros E. unfold writer_fail in E. cases_in E; subst s'; reflexivity. Qed.
Lemma handler_wire m s m' s' : handler_step m s = Some (m', s') -> s_wire s' = s_wire s /\ m_got m' = m_got m.
Proof. intros E. unfold handler_step in E. cases_in E; apply pair_equal_spec in E as [-> ->]; try (split; reflexivity). split; auto. now destruct (mget (s_out s) n). Qed.
Lemma wires_exec w m a m' : exec w m a = Some m' -> a <> AWriter ->
  incl (wires m') (wires m) /\ incl (m_got m') (m_got m ++ wires m).
Proof.
  intros E Na.
  assert (Same : wires m' = wires m -> m_got m' = m_got m -> incl (wires m') (wires m) /\ incl (m_got m') (m_got m ++ wires m)).
  { intros -> ->. split; [apply incl_refl|apply incl_appl, incl_refl]. }
  assert (Gone : wires m' = [] -> m_got m' = m_got m -> incl (wires m') (wires m) /\ incl (m_got m') (m_got m ++ wires m)).
  { intros -> ->. split; [intros x []|apply incl_appl, incl_refl]. }
  assert (Sess : forall f, (forall s s', f s = Some s' -> s_wire s' = s_wire s) -> in_sess m f = Some m' -> incl (wires m') (wires m) /\ incl (m_got m') (m_got m ++ wires m)).
  { intros f F X. unfold in_sess in X. destruct (m_sess m) as [s|] eqn:S; [|discriminate]. destruct (f s) as [s'|] eqn:Y; [|discriminate].
    apply some_eq in X. apply F in Y. apply Same; subst m'; auto. unfold wires. rewrite S. exact Y. }
  destruct a; try congruence; cbn [exec] in E.
  all: try solve [clear Same Gone Sess; destruct (m_sess m) as [s|] eqn:S; cases_in E; subst m'; unfold wires; ssimp; rewrite ?S; split; first [apply incl_refl|intros x []|apply incl_appl, incl_refl]].
  - apply (Sess (worker_step m)); auto. apply worker_wire.
  - apply (Sess notify_step); auto. apply notify_wire.
  - apply (Sess writer_fail); auto. apply fail_wire.
  - destruct (m_sess m) as [s|] eqn:S; [|discriminate]. destruct (handler_step m s) as [[m1 s1]|] eqn:H; [|discriminate].
    apply some_eq in E. apply handler_wire in H as [H1 H2]. apply Same; subst m'; auto. unfold wires. rewrite S. exact H1.
  - unfold wires. destruct (m_sess m) as [s|] eqn:S; [|discriminate]. destruct (s_wire s) as [|p r] eqn:X; [discriminate|].
    apply some_eq in E. subst m'. ssimp. split; [apply incl_tl, incl_refl|]. intros q Q. apply in_app_iff in Q as [Q|[<-|[]]]; apply in_or_app; [auto|right; now left].
  - eapply Sess; [|exact E]. intros s s' F. cbv beta in F. cases_in F; subst s'; reflexivity.
Qed.

Lemma fit_lim lim w l m : Forall act_ok l -> execs_lim lim w empty_mail l = Some m ->
  forall p, In p (m_got m ++ wires m) -> passable lim (p_msg p) = true.
Proof.
  intros F E0. revert l m F E0. apply (lim_inv lim w (fun m => forall p, In p (m_got m ++ wires m) -> passable lim (p_msg p) = true)); [intros p []|]. intros m a m' R I A E p H. assert (Ex := exec_lim_exec _ _ _ _ _ E).
  assert (K : a = AWriter \/ a <> AWriter) by (destruct a; (now left) || (right; discriminate)). destruct K as [->|K].
  - cbn [exec_lim exec] in E. unfold in_sess, writer_step, wires in *. destruct (m_sess m) as [s|] eqn:S; [|discriminate]. destruct (s_writer s) as [|q r] eqn:X; [discriminate|].
    destruct (passable lim (p_msg q)) eqn:Pq; [|discriminate]. destruct (_ || _); [discriminate|]. apply some_eq in E. subst m'. ssimp.
    rewrite app_assoc in H. apply in_app_iff in H as [H|[<-|[]]]; auto.
  - destruct (wires_exec w m a m' Ex K) as [W G]. apply I. apply in_app_iff in H as [H|H]; [now apply G|]. apply in_or_app. right. now apply W.
Qed.

(** * Nothing after a message that is too long *)

(** Before the first error, everything offered comes before [n], or [n] itself has
    been offered before. *)
Definition inv_split (n : bytes) (s : sessn) : Prop :=
  forall l1 x d l2, s_notes s = l1 ++ Good x d :: l2 -> ~ In Bad l1 -> before x n \/ x = n \/ In n (flat_map name_of l1).

Lemma split_step w m s s' n : sstep w m s s' -> inv_order m s -> inv_awake m s -> stored m n -> inv_split n s -> inv_split n s'.
Proof.
  intros St [O1 O2 O3 O4 O5 O6] [A1 A2] G X. destruct St; unfold inv_split in *; ssimp; auto.
  intros l1 x' d l2 E NB. apply snoc_split in E as [(-> & <- & ->)|(l3 & -> & E)]; [|eapply X; eauto].
  rewrite H in *. destruct (in_dec (list_eq_dec N.eq_dec) n (s_processed s)) as [P|P].
  - destruct (A2 n) as [Y|[Y|[]]]; auto. unfold trouble. intros [Y|[l' Y]]; [auto|congruence].
  - left. apply O4; [left; apply in_or_app; right; now left|]. split; auto.
Qed.

Lemma split_mail w m m' n : clock w = Increasing -> inv_disk m -> in_session inv_once m -> in_session inv_order m -> in_session inv_awake m -> trans w m m' ->
  (stored m n -> in_session (fun _ => inv_split n) m) -> stored m' n -> in_session (fun _ => inv_split n) m'.
Proof.
  intros C Di On Or Aw T I D s0 E.
  assert (K : forall s, m_sess m = Some s -> stored m n -> inv_split n s) by (intros s X Y; apply I; auto).
  destruct T; unfold stored in D; ssimp; try discriminate; try (injection E as <-).
  - eapply split_step; eauto.
  - auto.
  - destruct (m_sess m) as [s|] eqn:S; [|discriminate]. injection E as <-. rewrite mget_mset in D. destruct (eqb_spec n n0) as [->|Ne].
    + intros l1 x dx l2 En _. left. unfold before. ssimp. apply (H1 C). apply (io_used m s (On s S)). left. unfold sent. rewrite En, flat_map_app. apply in_or_app. right. now left.
    + exact (K s eq_refl D).
  - rename s0 into s; pose proof E as S. rewrite mget_mset in D. destruct (eqb_spec n n0) as [->|Ne].
    + intros l1 x dx l2 En _. left. unfold before. apply (H1 C). apply (io_used m s (On s S)). left. unfold sent. rewrite En, flat_map_app. apply in_or_app. right. now left.
    + exact (K s E D).
  - auto.
  - destruct (m_sess m) as [s|] eqn:S; [|discriminate]. injection E as <-. exact (K s eq_refl D).
  - auto.
  - intros [|? l1] ? ? ? X; discriminate X.
  - assert (D' : stored m n) by (unfold stored; destruct (mget (s_out s) t); exact D). exact (K s H D').
  - assert (D' : stored m n). { unfold stored. rewrite mget_mdel in D. destruct (eqb n (p_name p)); [congruence|exact D]. } exact (K s H D').
  - exact (K s H D).
Qed.

Lemma split_reach w m n : clock w = Increasing -> reachable w m -> stored m n -> in_session (fun _ => inv_split n) m.
Proof.
  intros C. revert m. apply (reach_inv2 w (fun m => stored m n -> in_session (fun _ => inv_split n) m)); [intros _ s; discriminate|].
  intros m0 m' R I T. assert (C' : clock w <> AnyTime) by congruence. eapply split_mail; eauto.
  - eapply inv_disk_reach; eauto.
  - eapply once_reach; eauto.
  - eapply order_reach; eauto.
  - eapply awake_reach; eauto.
Qed.

(** A delivered message that is too long stays in its file. *)
Lemma long_stays lim w l m n d : honest w = true -> clock w = Increasing -> Forall act_ok l -> execs_lim lim w empty_mail l = Some m ->
  In (n, d) (m_done m) -> passable lim d = false -> mget (m_disk m) n = Some (enc DiskMessage_codec d).
Proof.
  intros Ho C F E H L. assert (R : reachable w m) by (exists l; split; auto; eapply execs_lim_execs; eauto).
  destruct (kept_reach w m Ho ltac:(congruence) R n d H) as [X|(p & P & _ & Pm)]; auto.
  pose proof (fit_lim lim w l m F E p ltac:(apply in_or_app; now left)) as Y. rewrite Pm in Y. congruence.
Qed.

(** What is on the wire comes before it. *)
Lemma long_wire lim w l m n d s p : honest w = true -> clock w = Increasing -> Forall act_ok l -> execs_lim lim w empty_mail l = Some m ->
  In (n, d) (m_done m) -> passable lim d = false -> m_sess m = Some s -> In p (s_rcvd s ++ s_wire s) ->
  (forall q, In q (s_rcvd s) -> In q (m_got m)) -> before (p_name p) n.
Proof.
  intros Ho C F E H L S P Rg. assert (R : reachable w m) by (exists l; split; auto; eapply execs_lim_execs; eauto).
  assert (C' : clock w <> AnyTime) by congruence.
  assert (St : stored m n) by (unfold stored; rewrite (long_stays lim w l m n d Ho C F E H L); discriminate).
  pose proof (split_reach w m n C R St s S) as X. destruct (chain_reach w m R s S) as (rest & En & _).
  assert (Not : forall q, In q (s_rcvd s ++ s_wire s) -> p_name q <> n).
  { intros q Q Eq. assert (Fq : passable lim (p_msg q) = true).
    { apply (fit_lim lim w l m F E). apply in_app_iff in Q as [Q|Q]; apply in_or_app; [left; auto|]. right. unfold wires. now rewrite S. }
    assert (T : true_at m (p_name q) (p_msg q)).
    { apply (if_sess m (inv_flow_reach w m C' R) s S). unfold travelling. rewrite !in_app_iff. apply (in_map of_push) in Q. rewrite map_app, in_app_iff in Q. unfold of_push in *. tauto. }
    rewrite Eq in T. pose proof (inv_disk_reach w m C' R) as Di. destruct T as [T|T].
    - pose proof (done_fun m n _ _ Di H T). congruence.
    - exact (done_not_partial m n d Di H T). }
  apply in_split in P as (l1 & l2 & Ep). pose proof (Not p) as Np. rewrite Ep in En, Not. rewrite Ep in Np. rewrite map_app in En. cbn [map] in En. rewrite <- app_assoc in En. cbn [app] in En.
  destruct (X _ _ _ _ En) as [Y|[Y|Y]]; auto.
  - clear. induction l1; cbn; [tauto|]. intros [Q|Q]; [discriminate|auto].
  - exfalso. apply Np; [apply in_or_app; right; now left|exact Y].
  - exfalso. apply in_flat_map in Y as (o & Yo & Yn). apply in_map_iff in Yo as (q & <- & Yq). destruct Yn as [Yn|[]].
    apply (Not q); [apply in_or_app; now left|exact Yn].
Qed.

Lemma rcvd_got w m s p : reachable w m -> m_sess m = Some s -> In p (s_rcvd s) -> In p (m_got m).
Proof.
  intros R. revert m R s p. apply (reach_inv w (fun m => forall s p, m_sess m = Some s -> In p (s_rcvd s) -> In p (m_got m))); [discriminate|].
  intros m m' I T s0 p E H. destruct T; ssimp; try discriminate; try (injection E as <-); ssimp_in H; eauto.
  - eapply I; eauto. destruct H1; exact H.
  - destruct (m_sess m) as [s|] eqn:S; [|discriminate]. injection E as <-. eapply I; eauto.
  - destruct (m_sess m) as [s|] eqn:S; [|discriminate]. injection E as <-. eapply I; eauto.
  - destruct H.
  - destruct (mget (s_out s) t); eapply I; eauto.
  - apply in_or_app. apply in_app_iff in H as [H|H]; [left; eapply I; eauto|now right].
Qed.

Lemma long_got lim w l m : honest w = true -> clock w = Increasing -> Forall act_ok l -> execs_lim lim w empty_mail l = Some m ->
  forall n d, In (n, d) (m_done m) -> passable lim d = false -> forall p, In p (m_got m) -> before (p_name p) n.
Proof.
  intros Ho C. revert m. induction l as [|a l IH] using rev_ind; intros m F E n d D L p P.
  { injection E as <-. destruct D. }
  rewrite execs_lim_app in E. apply Forall_app in F as [F1 F2]. destruct (execs_lim lim w empty_mail l) as [m0|] eqn:X; [|discriminate].
  specialize (IH m0 F1 eq_refl). cbn [execs_lim] in E. destruct (exec_lim lim w m0 a) as [m1|] eqn:Y; [|discriminate]. injection E as <-.
  assert (R0 : reachable w m0) by (exists l; split; auto; eapply execs_lim_execs; eauto).
  apply exec_lim_exec in Y. apply Forall_inv in F2.
  assert (C' : clock w <> AnyTime) by congruence.
  assert (W : forall n d, In (n, d) (m_done m0) -> passable lim d = false -> forall p, In p (m_got m0 ++ wires m0) -> before (p_name p) n).
  { intros n0 d0 D0 L0 q Q. apply in_app_iff in Q as [Q|Q]; [eauto|]. unfold wires in Q. destruct (m_sess m0) as [s|] eqn:S; [|destruct Q].
    eapply long_wire; eauto; [apply in_or_app; now right|]. intros q' Q'. eapply rcvd_got; eauto. }
  pose proof (exec_trans w m0 a m1 F2 Y) as T.
  assert (K : m_got m1 = m_got m0 /\ (In (n, d) (m_done m0) \/ (forall x, In x (used m0) -> before x n)) \/
              (exists q, In q (wires m0) /\ m_got m1 = m_got m0 ++ [q]) /\ m_done m1 = m_done m0).
  { destruct T; ssimp; try (left; split; [reflexivity|now left]).
    - left. split; auto. cbn [m_done] in D. apply in_app_iff in D as [D|[D|[]]]; auto. right. injection D as -> ->. exact (H1 C).
    - left. split; [now destruct (mget (s_out s) t)|]. left. cbn in D. now destruct (mget (s_out s) t).
    - right. split; auto. exists p0. split; auto. unfold wires. rewrite H, H0. now left. }
  destruct K as [(G & [K|K])|((q & Q & G) & K)].
  - rewrite G in P. eauto.
  - rewrite G in P. apply K. destruct (if_got m0 (inv_flow_reach w m0 C' R0) p P) as [U|U]; unfold used; apply in_or_app; [left|now right].
    apply (in_map fst) in U. exact U.
  - rewrite K in D. rewrite G in P. apply (W n d D L). apply in_app_iff in P as [P|[<-|[]]]; apply in_or_app; auto.
Qed.

(** * Messages that fit *)

Lemma xpair_step {A} (c : codec A) ok a r b x b' more : good c ok -> ok 0 a -> b ++ more = enc c a ++ r ->
  dec c 0 b = Some (x, b') -> x = a /\ b' ++ more = r.
Proof.
  intros (R & _ & X) O E D. apply (X 0 b x b' more) in D. rewrite E, (R 0 a r O) in D. injection D as <- <-. auto.
Qed.
Lemma read_part d k d' : DiskMessage_ok 0 d -> read_msg (firstn k (enc DiskMessage_codec d)) = Some d' ->
  length (DiskMessage_From d') = 32%nat /\ (DiskMessage_Payload d' = [] \/ DiskMessage_Payload d' = DiskMessage_Payload d).
Proof.
  intros (H1 & H2 & H3). destruct d as [from rcv p c]. cbn [DiskMessage_From DiskMessage_Received DiskMessage_Payload] in *.
  change (enc DiskMessage_codec (mkDiskMessage from rcv p c)) with
    (enc (xfixed 32) from ++ (enc xint64 rcv ++ (enc xopaque p ++ enc xbool c))).
  remember (enc (xfixed 32) from ++ (enc xint64 rcv ++ (enc xopaque p ++ enc xbool c))) as e eqn:Ee.
  pose proof (firstn_skipn k e) as Ek. set (b := firstn k e) in *. set (more := skipn k e) in *. clearbody b more. subst e.
  assert (L : length from = 32%nat) by (unfold size_ok in H1; lia).
  unfold read_msg. destruct b as [|z zs] eqn:Eb; [intros [= <-]; auto|]. rewrite <- Eb in *. clear z zs Eb.
  destruct (dec (xfixed 32) 0 b) as [[f b1]|] eqn:D1; [|discriminate].
  destruct (xpair_step _ _ _ _ _ _ _ _ (good_fixed 32 ltac:(cbv; discriminate)) H1 Ek D1) as [-> E1].
  destruct b1 as [|z zs] eqn:Eb; [intros [= <-]; auto|]. rewrite <- Eb in *. clear z zs Eb.
  destruct (dec xint64 0 b1) as [[r b2]|] eqn:D2; [|discriminate].
  destruct (xpair_step _ _ _ _ _ _ _ _ good_int64 H2 E1 D2) as [-> E2].
  destruct b2 as [|z zs] eqn:Eb; [intros [= <-]; auto|]. rewrite <- Eb in *. clear z zs Eb.
  destruct (Nat.eqb (length b2) 4). { destruct (max_payload (of_be b2)); [|discriminate]. intros [= <-]; auto. }
  destruct (dec xopaque 0 b2) as [[q b3]|] eqn:D3; [|discriminate].
  destruct (xpair_step _ _ _ _ _ _ _ _ good_opaque H3 E2 D3) as [-> E3].
  destruct b3 as [|z zs] eqn:Eb; [intros [= <-]; auto|]. rewrite <- Eb in *. clear z zs Eb.
  destruct (dec xbool 0 b3) as [[c' b4]|]; [|discriminate]. intros [= <-]; auto.
Qed.

Lemma passable_iff lim d : length (DiskMessage_From d) = 32%nat ->
  passable lim d = true <-> 4 * ((len (DiskMessage_Payload d) + 3) / 4) + 84 <= lim.
Proof.
  intros F. unfold passable. rewrite N.leb_le. pose proof (len_push 0 d) as X. unfold len at 1 in X. rewrite F in X. specialize (X eq_refl).
  rewrite padded_spec in X. unfold len in X at 1. lia.
Qed.

Record inv_small (lim : N) (m : mail) : Prop := {
  sm_pending : forall n d, In (n, d) (m_pending m) -> DiskMessage_ok 0 d /\ passable lim d = true;
  sm_disk : forall n b d, mget (m_disk m) n = Some b -> read_msg b = Some d -> passable lim d = true;
  sm_sess : forall s n d, m_sess m = Some s -> In (n, d) (travelling s) -> passable lim d = true
}.

Lemma small_sess lim w m s s' : (forall n b d, mget (m_disk m) n = Some b -> read_msg b = Some d -> passable lim d = true) -> sstep w m s s' ->
  (forall n d, In (n, d) (travelling s) -> passable lim d = true) -> forall n d, In (n, d) (travelling s') -> passable lim d = true.
Proof.
  intros I St F n0 d0 H.
  assert (G : In (n0, d0) (travelling s) -> passable lim d0 = true) by eauto.
  unfold travelling in H, G. rewrite !in_app_iff in G.
  destruct St; cbn [s_work s_worker s_processed s_ntfn s_nt s_free s_out s_writer s_wdead s_wire s_recv s_acks s_hand s_closed s_notes s_rcvd s_away
    set_s_work set_s_worker set_s_processed set_s_ntfn set_s_nt set_s_free set_s_out set_s_writer set_s_wdead set_s_wire set_s_recv set_s_acks
    set_s_hand set_s_closed set_s_notes set_s_rcvd set_s_away in_worker in_nt in_hand] in H;
  repeat match goal with E : _ s = _ |- _ => rewrite E in G end; cbn [in_worker in_nt in_hand flat_map of_note map app] in G, H.
  all: repeat rewrite ?map_app, ?flat_map_app, ?in_app_iff in H; cbn [in_worker in_nt in_hand flat_map of_note map app In] in H;
       rewrite ?in_app_iff in H; cbn [In] in H, G; rewrite ?in_app_iff in G; cbn [In] in G; try tauto.
  - (* open *) destruct H as [[= <- <-]|H]; [|tauto]. eauto.
  - (* tag *) rewrite in_map_iff in H. destruct H as [H|[H|[H|[(q & Eq & Iq)|H]]]]; try tauto.
    apply mset_snd in Iq as [->|Iq]; [change ((n, d) = (n0, d0)) in Eq; tauto|].
    assert (X : In (n0, d0) (map of_push (map snd (s_out s)))) by (apply in_map_iff; eauto). tauto.
  - (* free *) rewrite in_map_iff in H.
    assert (X : (exists x, of_push x = (n0, d0) /\ In x (map snd (mdel (s_out s) t))) -> In (n0, d0) (map of_push (map snd (s_out s)))).
    { intros (q & Eq & Iq). apply mdel_snd in Iq. apply in_map_iff. eauto. }
    tauto.
  - (* ack *) rewrite (in_map_iff of_push r) in H.
    assert (X : (exists x, of_push x = (n0, d0) /\ In x r) -> In (n0, d0) (map of_push (s_recv s))).
    { intros (q & Eq & Iq). eapply remove_tag_In in Iq; eauto. apply in_map_iff. eauto. }
    tauto.
Qed.

Lemma handler_pending m s m' s' : handler_step m s = Some (m', s') -> m_pending m' = m_pending m.
Proof. intros E. unfold handler_step in E. cases_in E; apply pair_equal_spec in E as [-> ->]; auto. now destruct (mget (s_out s) n). Qed.
Lemma pending_exec w m a m' n d : exec w m a = Some m' -> In (n, d) (m_pending m') -> In (n, d) (m_pending m) \/ a = ACheck n d.
Proof.
  intros E H.
  assert (Sess : forall f, in_sess m f = Some m' -> m_pending m' = m_pending m).
  { intros f X. unfold in_sess in X. cases_in X. now subst m'. }
  destruct a; cbn [exec] in E; try (left; apply Sess in E; congruence).
  9: { left. destruct (m_sess m) as [s|]; [|discriminate]. destruct (handler_step m s) as [[m1 s1]|] eqn:X; [|discriminate].
       apply some_eq in E. apply handler_pending in X. subst m'. ssimp_in H. congruence. }
  all: destruct (m_sess m) as [s|]; cases_in E; subst m'; ssimp_in H; auto.
  all: try (left; eapply drop_In; eassumption).
  all: try destruct H.
  all: apply in_app_iff in H as [H|[H|[]]]; [now left|]; right; congruence.
Qed.

Lemma small_step lim w m a m' : inv_small lim m -> act_ok a -> (forall n d, a = ACheck n d -> passable lim d = true) ->
  exec w m a = Some m' -> inv_small lim m'.
Proof.
  intros [P D S] Ok A E. pose proof (exec_trans w m a m' Ok E) as T.
  assert (Pn : forall i n d, nth_error (m_pending m) i = Some (n, d) -> DiskMessage_ok 0 d /\ passable lim d = true).
  { intros i n d X. apply nth_error_In in X. eauto. }
  constructor.
  - intros n d H. destruct (pending_exec w m a m' n d E H) as [X| ->]; [eauto|]. split; [exact Ok|eauto].
  - intros n0 b0 d0 G R. destruct T; ssimp_in G; eauto.
    + rewrite mget_mset in G. destruct (eqb n0 n); [|eauto]. apply some_eq in G. subst b0. destruct (Pn _ _ _ H) as [O X].
      rewrite (read_enc d O) in R. now injection R as <-.
    + rewrite mget_mset in G. destruct (eqb n0 n); [|eauto]. apply some_eq in G. subst b0. destruct (Pn _ _ _ H) as [O X].
      destruct (read_part d k d0 O R) as [F Y]. apply (passable_iff lim d0 F). apply (passable_iff lim d) in X; [|destruct O as [O _]; unfold size_ok in O; lia].
      destruct Y as [-> | ->]; [|exact X]. change (len []) with 0. change ((0 + 3) / 4) with 0. lia.
    + rewrite mget_mset in G. destruct (eqb n0 n); [|eauto]. apply some_eq in G. subst b0. destruct (Pn _ _ _ H) as [O X].
      destruct (read_part d k d0 O R) as [F Y]. apply (passable_iff lim d0 F). apply (passable_iff lim d) in X; [|destruct O as [O _]; unfold size_ok in O; lia].
      destruct Y as [-> | ->]; [|exact X]. change (len []) with 0. change ((0 + 3) / 4) with 0. lia.
    + destruct (mget (s_out s) t); eauto.
    + rewrite mget_mdel in G. destruct (eqb n0 (p_name p)); [discriminate|eauto].
  - intros s0 n0 d0 Es H. destruct T; ssimp_in Es; try discriminate; try (apply some_eq in Es; subst s0); eauto.
    + eapply small_sess; eauto.
    + destruct (m_sess m) as [s|] eqn:X; [|discriminate]. apply some_eq in Es. subst s0. eapply S; eauto.
    + destruct (m_sess m) as [s|] eqn:X; [|discriminate]. apply some_eq in Es. subst s0. eapply S; eauto.
    + apply (S s n0 d0); auto. unfold travelling in H |- *. ssimp_in H. rewrite !in_app_iff in H |- *.
      assert (Y : In (n0, d0) (in_hand (HDelete t (mget (s_out s) t))) -> In (n0, d0) (map of_push (map snd (s_out s)))).
      { destruct (mget (s_out s) t) as [p|] eqn:Gp; cbn; [|intros []]. intros [<-|[]]. apply mget_snd in Gp. now apply in_map. }
      tauto.
    + apply (S s n0 d0); auto. unfold travelling in *. ssimp_in H. rewrite !in_app_iff in *. cbn [in_hand In] in H. tauto.
    + apply (S s n0 d0); auto. unfold travelling in *. ssimp_in H. rewrite H1. cbn [map]. rewrite !map_app, !in_app_iff in *. cbn [In map] in H |- *. tauto.
Qed.

Definition small_act (lim : N) (a : action) : Prop := forall n d, a = ACheck n d -> passable lim d = true.
Lemma small_runs lim w l : forall m, inv_small lim m -> Forall act_ok l -> Forall (small_act lim) l -> execs_lim lim w m l = execs w m l.
Proof.
  induction l as [|a l IH]; intros m I F A; cbn [execs_lim execs]; auto.
  apply Forall_cons_iff in F as [F1 F2]. apply Forall_cons_iff in A as [A1 A2].
  assert (X : exec_lim lim w m a = exec w m a).
  { destruct a; try reflexivity. cbn [exec_lim exec]. unfold in_sess, writer_step. destruct (m_sess m) as [s|] eqn:S; auto. destruct (s_writer s) as [|p r] eqn:W; auto.
    rewrite (sm_sess lim m I s (p_name p) (p_msg p) S); auto. unfold travelling. rewrite W. rewrite !in_app_iff. cbn. tauto. }
  rewrite X. destruct (exec w m a) as [m1|] eqn:Y; auto. apply IH; auto. eapply small_step; eauto.
Qed.
Lemma small_empty lim : inv_small lim empty_mail.
Proof. constructor; cbn; [intros ? ? []|discriminate|discriminate]. Qed.
