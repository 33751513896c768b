(** C78: what a user is told when a contact's account is disabled. *)
From Verif Require Import Base XdrModel RpcModel HexModel AddrModel WinModel NoticeModel NoticeProofs.
Local Open Scope N_scope.

(** ** Specification *)

(** The contact's own window (by its nick), and the window of a group that the contact
    is in and the user does not administer; a group the user administers. *)
Definition of_contact (rid : PublicIdentity) (v : nwin) : Prop := w_group (n_win v) = false /\ w_nick (n_win v) = nick rid.
Definition of_group (c : client) (rid : PublicIdentity) (v : nwin) : Prop :=
  w_group (n_win v) = true /\ exists a ms, mget (c_groups c) (w_nick (n_win v)) = Some (a :: ms) /\ a <> ident (c_me c) /\ In (ident rid) (a :: ms).
Definition of_mine (c : client) (v : nwin) : Prop :=
  w_group (n_win v) = true /\ exists ms, mget (c_groups c) (w_nick (n_win v)) = Some (ident (c_me c) :: ms).
Definition of_nobody (c : client) (v : nwin) : Prop := w_group (n_win v) = true /\ mget (c_groups c) (w_nick (n_win v)) = Some [].

(** A client that has run for a while, with all it printed. *)
Definition reachable (me : PublicIdentity) (c : client) (past : list (nat * notice)) : Prop := exists hs, history (started me) hs = Some (c, past).
(** The window was told of a disabled account before. *)
Definition told (past : list (nat * notice)) (v : nwin) : Prop := exists id, In (n_serial v, Told id) past.
(** One of the windows is the contact's and was not told before. *)
Definition first_time (past : list (nat * notice)) (rid : PublicIdentity) (ws : list nwin) : Prop :=
  exists u, In u ws /\ of_contact rid u /\ ~ told past u.

(** ** The specification and the functions *)

Lemma direct_ok rid v : direct rid v = true <-> of_contact rid v.
Proof.
  unfold direct, of_contact. rewrite andb_true_iff, negb_true_iff. destruct (eqb_spec (w_nick (n_win v)) (nick rid)); intuition; try discriminate.
Qed.
Lemma grouped_ok c rid v : grouped (ident (c_me c)) (c_groups c) rid v = true <-> of_group c rid v.
Proof.
  unfold grouped, of_group. rewrite andb_true_iff. destruct (mget (c_groups c) (w_nick (n_win v))) as [[|a ms]|].
  - split; [intros [_ H]; discriminate|intros [_ (a & ms & H & _)]; discriminate].
  - rewrite andb_true_iff, negb_true_iff, mem_In. destruct (eqb_spec (ident (c_me c)) a) as [E|E].
    + split; [intros (_ & H & _); discriminate|]. intros [_ (a' & ms' & [= <- <-] & N & _)]. now destruct N.
    + split.
      * intros (H1 & _ & H2). split; auto. exists a, ms. auto.
      * intros [H1 (a' & ms' & [= <- <-] & _ & H2)]. auto.
  - split; [intros [_ H]; discriminate|intros [_ (a & ms & H & _)]; discriminate].
Qed.
Lemma mine_ok c v : mine (ident (c_me c)) (c_groups c) v = true <-> of_mine c v.
Proof.
  unfold mine, of_mine. rewrite andb_true_iff. destruct (mget (c_groups c) (w_nick (n_win v))) as [[|a ms]|].
  - split; [intros [_ H]; discriminate|intros [_ (ms & H)]; discriminate].
  - destruct (eqb_spec (ident (c_me c)) a) as [E|E].
    + split; [intros [H _]; split; auto; exists ms; now rewrite E|intros [H _]; auto].
    + split; [intros [_ H]; discriminate|intros [_ (ms' & [= H _])]; now destruct E].
  - split; [intros [_ H]; discriminate|intros [_ (ms & H)]; discriminate].
Qed.
Lemma fatal_ok c v : fatal (c_groups c) v = true <-> of_nobody c v.
Proof.
  unfold fatal, of_nobody. rewrite andb_true_iff. destruct (mget (c_groups c) (w_nick (n_win v))) as [[|a ms]|]; intuition; discriminate.
Qed.
Lemma concerned_ok c rid v : concerned (ident (c_me c)) (c_groups c) rid v = true <-> of_contact rid v \/ of_group c rid v.
Proof. unfold concerned. now rewrite orb_true_iff, direct_ok, grouped_ok. Qed.

Lemma seen_told me c past v : reachable me c past -> In v (c_wins c) -> (n_seen v <> 0 <-> told past v).
Proof.
  intros [hs H] I. split.
  - intros NZ. destruct (history_seen _ _ _ _ H v I NZ) as [(u & [<-|[]] & _ & Z)|X]; auto. now destruct Z.
  - intros [id T]. destruct (history_told _ _ _ _ H (started_sane me) _ _ T) as [_ S]. now apply S.
Qed.
Lemma unseen_told me c past v : reachable me c past -> In v (c_wins c) -> (n_seen v = 0 <-> ~ told past v).
Proof. intros R I. rewrite <- (seen_told me c past v R I). destruct (N.eq_dec (n_seen v) 0); tauto. Qed.
Lemma reached_ok me c past rid ws1 : reachable me c past -> (forall u, In u ws1 -> In u (c_wins c)) -> (reached rid ws1 <-> ~ first_time past rid ws1).
Proof.
  intros R S. unfold reached, first_time, ends. split.
  - intros H (u & I & C & N). specialize (H _ I). apply direct_ok in C. rewrite C in H. cbn [andb] in H. apply N.eqb_neq in H. apply H.
    apply (unseen_told me c past); auto.
  - intros H v I. apply andb_false_iff. destruct (direct rid v) eqn:D; auto. right. apply N.eqb_neq. intros Z. apply H. exists v. apply direct_ok in D.
    repeat split; auto; try apply D. apply (unseen_told me c past); auto.
Qed.
Lemma reachable_sane me c past : reachable me c past -> sane c.
Proof. intros [hs H]. eapply history_sane; eauto. apply started_sane. Qed.

(** Whom an identity is of: the user, or else somebody in the address book. *)
Definition known (c : client) (id : bytes) (rid : PublicIdentity) : Prop :=
  (id = ident (c_me c) /\ rid = c_me c) \/ (id <> ident (c_me c) /\ c_find c id = Some rid).
Lemma known_ok c id rid : known c id rid <-> book_find c id = Some rid.
Proof.
  unfold known, book_find. destruct (eqb_spec id (ident (c_me c))) as [E|E]; split.
  - intros [[_ ->]|[X _]]; [reflexivity|easy].
  - intros [= <-]. auto.
  - intros [[X _]|[_ X]]; [easy|exact X].
  - auto.
Qed.

(** ** C78 *)

(** A window gets the notice exactly if it is the contact's or that of a group with the
    contact which the user does not administer, was never given one before, and comes
    before any window of the contact that gets its first one now. *)
Theorem C78_told me c past id rid ws1 v ws2 c' out : reachable me c past -> known c id rid ->
  c_wins c = ws1 ++ v :: ws2 -> handle_disabled c id = Some (c', out) ->
  (In (n_serial v, Told (ident rid)) out <-> (of_contact rid v \/ of_group c rid v) /\ ~ told past v /\ ~ first_time past rid ws1).
Proof.
  intros R B%known_ok E H. unfold handle_disabled in H. rewrite B in H. destruct (tell _ _ _ _) as [[ws o]|] eqn:T; [|discriminate]. injection H as <- <-.
  pose proof (reachable_sane _ _ _ R) as [ND _]. rewrite E in T, ND. rewrite (tell_at _ _ _ _ _ _ _ _ _ ND T), said_told, concerned_ok.
  rewrite (reached_ok me c past) by (auto; intros u I; rewrite E; apply in_or_app; now left).
  rewrite (unseen_told me c past v R) by (rewrite E; apply in_or_app; right; now left). tauto.
Qed.
Print Assumptions C78_told.

(** At most one such notice in the life of a window, whoever it is about. *)
Theorem C78_once me c past o1 k id o2 : reachable me c past -> past = o1 ++ (k, Told id) :: o2 -> forall id', ~ In (k, Told id') o2.
Proof. intros [hs H] E. eapply history_once; eauto. apply started_sane. Qed.
Print Assumptions C78_once.

(** So a second disabled member of a group is not announced in its window. *)
Theorem C78_second_refuted me c past id id' v c' out : reachable me c past -> told past v ->
  handle_disabled c id = Some (c', out) -> ~ In (n_serial v, Told id') out.
Proof.
  intros [hs H] [id0 T] D. assert (A : happen c (Reply id [] user_disabled) = Some (c', [] ++ out)).
  { cbn [happen]. unfold handle_ack. rewrite N.eqb_refl, D. reflexivity. }
  destruct (happen_told _ _ _ _ A (history_sane _ _ _ _ H (started_sane me))) as (X & _).
  apply X. eapply history_told; eauto. apply started_sane.
Qed.
Print Assumptions C78_second_refuted.

(** Two replies in a row reach every window concerned, if the contact has one window. *)
Theorem C78_all me c past id rid c1 out1 c2 out2 v : reachable me c past -> known c id rid ->
  (forall u u', In u (c_wins c) -> In u' (c_wins c) -> of_contact rid u -> of_contact rid u' -> u = u') ->
  handle_disabled c id = Some (c1, out1) -> handle_disabled c1 id = Some (c2, out2) ->
  In v (c_wins c) -> of_contact rid v \/ of_group c rid v ->
  told (past ++ out1 ++ out2) v.
Proof.
  intros R B%known_ok U H1 H2 I CN.
  destruct (N.eq_dec (n_seen v) 0) as [Z|Z].
  2:{ apply (seen_told me c past v R I) in Z as [x X]. exists x. apply in_or_app. now left. }
  assert (RV : In (n_serial v, Told (ident rid)) out1 \/ In (n_serial v, Told (ident rid)) out2).
  { unfold handle_disabled in H1. rewrite B in H1. destruct (tell _ _ _ (c_wins c)) as [[ws o]|] eqn:T; [|discriminate]. injection H1 as <- <-.
    unfold handle_disabled in H2. change (book_find (with_wins c ws) id) with (book_find c id) in H2. rewrite B in H2. cbn [c_me c_groups c_wins with_wins] in H2.
    destruct (tell (ident (c_me c)) (c_groups c) rid ws) as [[ws2 o2]|] eqn:T2; [|discriminate]. injection H2 as _ <-.
    set (me' := ident (c_me c)) in *. set (gs := c_groups c) in *.
    pose proof (reachable_sane _ _ _ R) as [ND _]. pose proof (tell_some _ _ _ _ _ _ T) as [SER _].
    destruct (tell_wins me' gs rid _ _ _ T) as (a & b & EA & EB & EC).
    assert (CV : concerned me' gs rid v = true) by (now apply concerned_ok).
    rewrite EA in I. apply in_app_or in I as [I|I].
    - left. apply (tell_out me' gs rid _ _ _ T). apply in_split in I as (a1 & a2 & ->). exists a1, v, (a2 ++ b). rewrite EA, <- app_assoc. split; auto. split.
      + destruct EC as [[_ Rc]|(a' & x & E & Rc & _)]; [intros y Hv; apply Rc; apply in_or_app; now left|].
        destruct a2 as [|y a2] using rev_ind.
        { apply app_inj_tail in E as [-> _]. exact Rc. }
        { rewrite app_comm_cons, app_assoc in E. apply app_inj_tail in E as [<- _]. intros z Hv. apply Rc. apply in_or_app. now left. }
      + apply said_told. auto.
    - right. destruct EC as [[-> _]|(a' & x & -> & Rc & EX)]; [destruct I|].
      apply in_split in I as (b1 & b2 & ->). apply (tell_out me' gs rid _ _ _ T2).
      exists (map (marked me' gs rid) (a' ++ [x]) ++ b1), v, b2. rewrite EB, <- app_assoc. split; auto. split; [|apply said_told; auto].
      assert (DX : of_contact rid x) by (apply direct_ok; unfold ends in EX; now apply andb_prop in EX).
      intros y Iy. unfold ends. destruct (direct rid y) eqn:DY; auto. cbn [andb]. apply N.eqb_neq. apply direct_ok in DY. apply in_app_or in Iy as [Iy|Iy].
      + apply in_map_iff in Iy as (u & <- & Ju).
        assert (DU : of_contact rid u) by (unfold marked in DY; destruct (concerned me' gs rid u); exact DY).
        assert (u = x) as ->.
        { apply U; auto; rewrite EA; apply in_or_app; left; auto. apply in_or_app. right. now left. }
        unfold marked. replace (concerned me' gs rid x) with true; [cbn; lia|]. symmetry. apply concerned_ok. now left.
      + exfalso. assert (y = x) as ->.
        { apply U; auto; rewrite EA; [|apply in_or_app; left; apply in_or_app; right; now left]. apply in_or_app. right. apply in_or_app. now left. }
        rewrite EA, !map_app in ND. cbn [map] in ND. rewrite <- app_assoc in ND. cbn [app] in ND. apply NoDup_remove_2 in ND. apply ND.
        apply in_or_app. right. apply in_or_app. left. now apply in_map. }
  destruct RV as [RV|RV]; exists (ident rid); apply in_or_app; right; apply in_or_app; auto.
Qed.
Print Assumptions C78_all.

(** The administrator of a group with a window is asked to kick the contact, whether or not
    the contact is a member. *)
Theorem C78_kick me c past id rid ws1 v ws2 c' out : reachable me c past -> known c id rid ->
  c_wins c = ws1 ++ v :: ws2 -> handle_disabled c id = Some (c', out) ->
  (In (n_serial v, Kick (ident rid)) out <-> of_mine c v /\ ~ first_time past rid ws1).
Proof.
  intros R B%known_ok E H. unfold handle_disabled in H. rewrite B in H. destruct (tell _ _ _ _) as [[ws o]|] eqn:T; [|discriminate]. injection H as <- <-.
  pose proof (reachable_sane _ _ _ R) as [ND _]. rewrite E in T, ND. rewrite (tell_at _ _ _ _ _ _ _ _ _ ND T), said_kick, mine_ok.
  rewrite (reached_ok me c past) by (auto; intros u I; rewrite E; apply in_or_app; now left). tauto.
Qed.
Print Assumptions C78_kick.

(** The program dies exactly if it comes to the window of a group without members. *)
Theorem C78_dies me c past id : reachable me c past ->
  (handle_disabled c id = None <-> exists rid ws1 v ws2, known c id rid /\ c_wins c = ws1 ++ v :: ws2 /\ of_nobody c v /\ ~ first_time past rid ws1).
Proof.
  intros R. setoid_rewrite known_ok. unfold handle_disabled. destruct (book_find c id) as [rid|].
  - assert (X : tell (ident (c_me c)) (c_groups c) rid (c_wins c) = None <-> exists ws1 v ws2, c_wins c = ws1 ++ v :: ws2 /\ of_nobody c v /\ ~ first_time past rid ws1).
    { rewrite tell_none. split; intros (ws1 & v & ws2 & E & A & B); exists ws1, v, ws2; (split; [exact E|]).
      - rewrite <- fatal_ok. split; auto. apply (reached_ok me c past); auto. intros u I. rewrite E. apply in_or_app. now left.
      - rewrite fatal_ok. split; auto. apply (reached_ok me c past); auto. intros u I. rewrite E. apply in_or_app. now left. }
    split.
    + intros H. destruct (tell _ _ _ _) as [[? ?]|]; [discriminate|]. destruct (proj1 X eq_refl) as (ws1 & v & ws2 & Y). exists rid, ws1, v, ws2. auto.
    + intros (rid' & ws1 & v & ws2 & [= <-] & Y). rewrite (proj2 X); auto. now exists ws1, v, ws2.
  - split; [discriminate|]. intros (rid & _ & _ & _ & H & _). discriminate.
Qed.
Print Assumptions C78_dies.

(** The console shows the identity each time. *)
Theorem C78_console me c past id c' out : reachable me c past ->
  handle_ack c id (fst (server_reply true id)) (snd (server_reply true id)) = Some (c', out) ->
  In (O, CacheError (bs "identity disabled " ++ hex_encode id)) out.
Proof.
  intros [hs R] H. assert (F : console_first c) by (eapply history_console; eauto; exists (mkNwin 0 (console me) 0), []; auto).
  destruct F as (v & r & E & Z). unfold handle_ack in H. cbn [server_reply fst snd] in H. rewrite N.eqb_refl in H.
  destruct (handle_disabled c id) as [[c1 o1]|]; [|discriminate]. injection H as _ <-. unfold at_window. rewrite E. cbn [nth_error]. rewrite Z. now left.
Qed.
Print Assumptions C78_console.

(** Any other failure of the server is shown on the console, and says nothing about the
    recipient: no window announces anything and none is marked. *)
Theorem C78_other me c past id : reachable me c past ->
  handle_ack c id (fst (server_reply false id)) (snd (server_reply false id)) = Some (c, [(O, CacheError (bs "internal error"))]).
Proof.
  intros [hs R]. assert (F : console_first c) by (eapply history_console; eauto; exists (mkNwin 0 (console me) 0), []; auto).
  destruct F as (v & r & E & Z). unfold handle_ack, at_window. rewrite E. cbn [nth_error]. rewrite Z. reflexivity.
Qed.
Print Assumptions C78_other.

(** ** Cases *)

(** Bob and carol are members of alice's group "g"; dave has none; the group "h" is the
    user's own, with carol only.  The windows: bob, the group g, the group h. *)
Definition somebody (n : N) (name : bytes) : PublicIdentity :=
  mkPublicIdentity name name (zeros 32) (zeros 32) (repeat n 32) (zeros 32) (zeros 64).
Definition n_me : PublicIdentity := somebody 9 (bs "me").
Definition n_bob : PublicIdentity := somebody 2 (bs "bob").
Definition n_carol : PublicIdentity := somebody 3 (bs "carol").
Definition n_book (id : bytes) : option PublicIdentity :=
  if eqb id (ident n_bob) then Some n_bob else if eqb id (ident n_carol) then Some n_carol else None.
Definition n_groups : list (bytes * list bytes) :=
  [(bs "g", [repeat 1 32; ident n_me; ident n_bob; ident n_carol]); (bs "h", [ident n_me; ident n_carol])].
Definition n_hs : list happens :=
  [Changes n_book n_groups; Opens (mkWin n_bob (bs "bob") false); Opens (group_win (bs "g")); Opens (group_win (bs "h"))].
Definition n_c : client := match history (started n_me) n_hs with Some (c, _) => c | None => started n_me end.
Definition reply_to (id : bytes) : happens := Reply id (fst (server_reply true id)) (snd (server_reply true id)).
Definition shown (hs : list happens) : option (list (nat * notice)) :=
  match history n_c hs with Some (_, out) => Some (filter (fun kn => negb (Nat.eqb (fst kn) 0)) out) | None => None end.

Lemma n_reach : reachable n_me n_c [].
Proof. exists n_hs. vm_compute. reflexivity. Qed.

(** Bob is disabled: his window is told, at the next message the group too, and the user is
    asked to kick him from a group he is not in; carol, who is disabled later, is not
    announced in g.  Somebody unknown is announced in the window on the screen. *)
Example C78_case : shown [reply_to (ident n_bob)] = Some [(1%nat, Told (ident n_bob))] /\
  shown [reply_to (ident n_bob); reply_to (ident n_bob)] =
    Some [(1%nat, Told (ident n_bob)); (2%nat, Told (ident n_bob)); (3%nat, Kick (ident n_bob))] /\
  shown [reply_to (ident n_bob); reply_to (ident n_bob); reply_to (ident n_carol)] =
    Some [(1%nat, Told (ident n_bob)); (2%nat, Told (ident n_bob)); (3%nat, Kick (ident n_bob)); (3%nat, Kick (ident n_carol))] /\
  shown [Focus 2; reply_to (repeat 7 32)] = Some [(2%nat, Unknown (repeat 7 32))].
Proof. vm_compute. auto. Qed.
Example C78_told_case c' out : handle_disabled n_c (ident n_bob) = Some (c', out) ->
  In (1%nat, Told (ident n_bob)) out /\ ~ In (2%nat, Told (ident n_bob)) out.
Proof.
  intros H. assert (B : known n_c (ident n_bob) n_bob) by (apply known_ok; vm_compute; reflexivity).
  assert (W : c_wins n_c = [mkNwin 0 (console n_me) 0] ++ mkNwin 1 (mkWin n_bob (bs "bob") false) 0 :: [mkNwin 2 (group_win (bs "g")) 0; mkNwin 3 (group_win (bs "h")) 0])
    by (vm_compute; reflexivity).
  assert (W2 : c_wins n_c = [mkNwin 0 (console n_me) 0; mkNwin 1 (mkWin n_bob (bs "bob") false) 0] ++ mkNwin 2 (group_win (bs "g")) 0 :: [mkNwin 3 (group_win (bs "h")) 0])
    by (vm_compute; reflexivity).
  split.
  - apply (C78_told n_me n_c [] (ident n_bob) n_bob _ _ _ c' out n_reach B W H). split; [left; split; reflexivity|]. split.
    + intros [x []].
    + intros (u & [<-|[]] & [_ Q] & _). discriminate.
  - intros I. apply (C78_told n_me n_c [] (ident n_bob) n_bob _ _ _ c' out n_reach B W2 H) in I as (_ & _ & N). apply N.
    exists (mkNwin 1 (mkWin n_bob (bs "bob") false) 0). split; [right; now left|]. split; [split; reflexivity|]. intros [x []].
Qed.
(** The window of a group that has lost all its members: the program dies. *)
Example C78_dies_case : history n_c [Changes n_book [(bs "g", []); (bs "h", [ident n_me])]; Closes 1; reply_to (ident n_bob)] = None.
Proof. vm_compute. reflexivity. Qed.
(** A contact that the address book calls otherwise than the window: not told there; the
    notice is shown in the window of the one who has the name. *)
Example C78_nick_case : shown [Changes (fun id => if eqb id (ident n_carol) then Some (with_nick n_carol (bs "bob")) else n_book id) n_groups;
  reply_to (ident n_carol)] = Some [(1%nat, Told (ident n_carol))].
Proof. vm_compute. reflexivity. Qed.
