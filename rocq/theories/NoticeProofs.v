(** Proofs about NoticeModel. *)
From Verif Require Import Base XdrModel RpcModel HexModel AddrModel WinModel NoticeModel.
Local Open Scope N_scope.

Section Tell.
Variable me : bytes.
Variable groups : list (bytes * list bytes).
Variable rid : PublicIdentity.
Notation tell := (tell me groups rid).

Definition direct (v : nwin) : bool := negb (w_group (n_win v)) && eqb (w_nick (n_win v)) (nick rid).
(** The loop ends in this window. *)
Definition ends (v : nwin) : bool := direct v && (n_seen v =? 0).
Definition grouped (v : nwin) : bool :=
  w_group (n_win v) &&
  match mget groups (w_nick (n_win v)) with
  | Some (a :: ms) => negb (eqb me a) && mem (ident rid) (a :: ms)
  | _ => false
  end.
Definition mine (v : nwin) : bool :=
  w_group (n_win v) && match mget groups (w_nick (n_win v)) with Some (a :: _) => eqb me a | _ => false end.
Definition fatal (v : nwin) : bool := w_group (n_win v) && match mget groups (w_nick (n_win v)) with Some [] => true | _ => false end.
Definition gone (v : nwin) : bool := w_group (n_win v) && match mget groups (w_nick (n_win v)) with None => true | _ => false end.
Definition concerned (v : nwin) : bool := direct v || grouped v.

(** What the loop does in one window. *)
Definition said (v : nwin) : list (nat * notice) :=
  if gone v then [(n_serial v, Lost (ident rid))]
  else if mine v then [(n_serial v, Kick (ident rid))]
  else if concerned v && (n_seen v =? 0) then [(n_serial v, Told (ident rid))] else [].
Definition marked (v : nwin) : nwin := if concerned v then bump v else v.

Lemma said_serial v k n : In (k, n) (said v) -> k = n_serial v.
Proof.
  unfold said. destruct (gone v); [intros [[= <- _]|[]]; reflexivity|]. destruct (mine v); [intros [[= <- _]|[]]; reflexivity|].
  destruct (concerned v && (n_seen v =? 0)); [intros [[= <- _]|[]]; reflexivity|intros []].
Qed.

Lemma tell_cons v r : tell (v :: r) =
  if fatal v then None
  else if ends v then Some (bump v :: r, [(n_serial v, Told (ident rid))])
  else match tell r with Some (r', out) => Some (marked v :: r', said v ++ out) | None => None end.
Proof.
  cbn [NoticeModel.tell]. unfold fatal, ends, marked, said, concerned, gone, mine, grouped, direct.
  destruct (w_group (n_win v)); cbn [negb andb orb].
  - destruct (mget groups (w_nick (n_win v))) as [[|a ms]|]; cbn [andb negb orb]; auto.
    destruct (eqb me a); cbn [andb negb orb]; auto.
    destruct (mem (ident rid) (a :: ms)); cbn [andb negb orb]; auto.
    destruct (n_seen v =? 0) eqn:S, (0 <? n_seen v) eqn:Q; auto.
    + apply N.eqb_eq in S. rewrite S in Q. discriminate.
    + apply N.eqb_neq in S. apply N.ltb_ge in Q. lia.
  - destruct (eqb (w_nick (n_win v)) (nick rid)); cbn [negb andb orb]; auto.
    destruct (n_seen v =? 0) eqn:S, (0 <? n_seen v) eqn:Q; auto.
    + apply N.eqb_eq in S. rewrite S in Q. discriminate.
    + apply N.eqb_neq in S. apply N.ltb_ge in Q. lia.
Qed.

(** Windows before which the loop does not end. *)
Definition reached (ws1 : list nwin) : Prop := forall v, In v ws1 -> ends v = false.

Lemma tell_none ws : tell ws = None <-> exists ws1 v ws2, ws = ws1 ++ v :: ws2 /\ reached ws1 /\ fatal v = true.
Proof.
  induction ws as [|v r IH].
  - split; [discriminate|]. intros (ws1 & v & ws2 & E & _). now destruct ws1.
  - rewrite tell_cons. destruct (fatal v) eqn:F.
    + split; auto. intros _. exists [], v, r. repeat split; auto. intros ? [].
    + destruct (ends v) eqn:EN.
      * split; [discriminate|]. intros (ws1 & u & ws2 & E & R & FU). destruct ws1 as [|x ws1].
        { injection E as <- <-. congruence. }
        { injection E as <- ->. specialize (R v (or_introl eq_refl)). congruence. }
      * split.
        { destruct (tell r) as [[r' out]|]; [discriminate|]. intros _. destruct (proj1 IH eq_refl) as (ws1 & u & ws2 & -> & R & FU).
          exists (v :: ws1), u, ws2. repeat split; auto. intros x [<-|I]; auto. }
        { intros (ws1 & u & ws2 & E & R & FU). destruct ws1 as [|x ws1].
          - injection E as <- <-. congruence.
          - injection E as <- ->. rewrite (proj2 IH); auto. exists ws1, u, ws2. repeat split; auto. intros y I. apply R. now right. }
Qed.

Lemma tell_some ws : forall ws' out, tell ws = Some (ws', out) ->
  map n_serial ws' = map n_serial ws /\ (forall k n, In (k, n) out -> In k (map n_serial ws)).
Proof.
  induction ws as [|v r IH]; intros ws' out.
  - cbn. intros [= <- <-]. auto.
  - rewrite tell_cons. destruct (fatal v); [discriminate|]. destruct (ends v).
    + intros [= <- <-]. cbn. split; auto. intros k n [[= <- <-]|[]]. now left.
    + destruct (tell r) as [[r' o]|]; [|discriminate]. intros [= <- <-]. destruct (IH _ _ eq_refl) as [I1 I2]. cbn [map]. rewrite I1. split.
      * f_equal. unfold marked. now destruct (concerned v).
      * intros k n I. apply in_app_or in I as [I|I].
        { left. now apply said_serial in I. }
        { right. eapply I2; eauto. }
Qed.

Lemma ends_said v : ends v = true -> said v = [(n_serial v, Told (ident rid))] /\ marked v = bump v.
Proof.
  unfold ends. intros H. apply andb_prop in H as [D S]. unfold said, marked, concerned. rewrite D. cbn [orb andb]. rewrite S.
  unfold direct in D. apply andb_prop in D as [D _]. apply negb_true_iff in D. unfold gone, mine. rewrite D. auto.
Qed.

(** The notices are those of the windows reached. *)
Lemma tell_out ws : forall ws' out, tell ws = Some (ws', out) -> forall k n,
  In (k, n) out <-> exists ws1 v ws2, ws = ws1 ++ v :: ws2 /\ reached ws1 /\ In (k, n) (said v).
Proof.
  induction ws as [|v r IH]; intros ws' out.
  - cbn. intros [= <- <-] k n. split; [intros []|]. intros (ws1 & v & ws2 & E & _). now destruct ws1.
  - rewrite tell_cons. destruct (fatal v) eqn:F; [discriminate|]. destruct (ends v) eqn:EN.
    + intros [= <- <-] k n. destruct (ends_said v EN) as [SV _]. split.
      * intros H. exists [], v, r. rewrite SV. repeat split; auto. intros ? [].
      * intros (ws1 & u & ws2 & E & R & I). destruct ws1 as [|x ws1].
        { injection E as <- <-. now rewrite <- SV. }
        { injection E as <- ->. specialize (R v (or_introl eq_refl)). congruence. }
    + destruct (tell r) as [[r' o]|]; [|discriminate]. intros [= <- <-] k n. rewrite in_app_iff, (IH _ _ eq_refl). split.
      * intros [I|(ws1 & u & ws2 & -> & R & I)].
        { exists [], v, r. repeat split; auto. intros ? []. }
        { exists (v :: ws1), u, ws2. repeat split; auto. intros x [<-|J]; auto. }
      * intros (ws1 & u & ws2 & E & R & I). destruct ws1 as [|x ws1].
        { injection E as <- <-. now left. }
        { injection E as <- ->. right. exists ws1, u, ws2. repeat split; auto. intros y J. apply R. now right. }
Qed.

(** The windows reached are marked, the others as they were. *)
Lemma tell_wins ws : forall ws' out, tell ws = Some (ws', out) ->
  exists a b, ws = a ++ b /\ ws' = map marked a ++ b /\
    ((b = [] /\ reached a) \/ exists a' u, a = a' ++ [u] /\ reached a' /\ ends u = true).
Proof.
  induction ws as [|v r IH]; intros ws' out.
  - cbn. intros [= <- <-]. exists [], []. repeat split; auto. left. split; auto. intros ? [].
  - rewrite tell_cons. destruct (fatal v) eqn:F; [discriminate|]. destruct (ends v) eqn:EN.
    + intros [= <- <-]. exists [v], r. cbn. destruct (ends_said v EN) as [_ ->]. repeat split; auto. right. exists [], v. repeat split; auto. intros ? [].
    + destruct (tell r) as [[r' o]|]; [|discriminate]. intros [= <- <-]. destruct (IH _ _ eq_refl) as (a & b & -> & -> & H).
      exists (v :: a), b. repeat split; auto. destruct H as [[-> R]|(a' & u & -> & R & U)].
      * left. split; auto. intros x [<-|J]; auto.
      * right. exists (v :: a'), u. repeat split; auto. intros x [<-|J]; auto.
Qed.

Lemma serial_eq ws v u : NoDup (map n_serial ws) -> In v ws -> In u ws -> n_serial v = n_serial u -> v = u.
Proof.
  induction ws as [|x r IH]; cbn [map]; intros ND Hv Hu E; [destruct Hv|]. inversion ND as [|? ? N ND']; subst.
  destruct Hv as [<-|Hv], Hu as [<-|Hu]; auto; exfalso; apply N; [rewrite E|rewrite <- E]; now apply in_map.
Qed.
Lemma split_at ws1 ws2 ws3 ws4 (v : nwin) : NoDup (map n_serial (ws1 ++ v :: ws2)) -> ws1 ++ v :: ws2 = ws3 ++ v :: ws4 -> ws1 = ws3.
Proof.
  revert ws3. induction ws1 as [|x ws1 IH]; intros [|y ws3] ND E; cbn in *; auto.
  - injection E as -> ->. exfalso. inversion ND as [|? ? N _]; subst. apply N. apply in_map. apply in_or_app. right. now left.
  - injection E as -> E. exfalso. inversion ND as [|? ? N _]; subst. apply N. apply in_map. apply in_or_app. right. now left.
  - injection E as -> E. f_equal. inversion ND; subst. eapply IH; eauto.
Qed.

(** The notices in one window. *)
Lemma tell_at ws1 v ws2 ws' out n : NoDup (map n_serial (ws1 ++ v :: ws2)) -> tell (ws1 ++ v :: ws2) = Some (ws', out) ->
  (In (n_serial v, n) out <-> reached ws1 /\ In (n_serial v, n) (said v)).
Proof.
  intros ND H. rewrite (tell_out _ _ _ H). split.
  - intros (a & u & b & E & R & I).
    assert (u = v) as ->.
    { apply (serial_eq _ u v ND); [rewrite E; apply in_or_app; right; now left|apply in_or_app; right; now left|]. now apply said_serial in I. }
    apply split_at in E as ->; auto.
  - intros [R I]. exists ws1, v, ws2. auto.
Qed.

Lemma said_told v id : In (n_serial v, Told id) (said v) <-> id = ident rid /\ n_seen v = 0 /\ concerned v = true.
Proof.
  unfold said. destruct (gone v) eqn:G.
  - split; [intros [I|[]]; discriminate|]. intros (_ & _ & C). exfalso. unfold gone in G. apply andb_prop in G as [G1 G2].
    unfold concerned, direct, grouped in C. rewrite G1 in C. cbn [negb andb orb] in C. destruct (mget groups (w_nick (n_win v))); discriminate.
  - destruct (mine v) eqn:M.
    + split; [intros [I|[]]; discriminate|]. intros (_ & _ & C). exfalso. unfold mine in M. apply andb_prop in M as [G1 G2].
      unfold concerned, direct, grouped in C. rewrite G1 in C. cbn [negb andb orb] in C. destruct (mget groups (w_nick (n_win v))) as [[|a ms]|]; try discriminate.
      rewrite G2 in C. discriminate.
    + destruct (concerned v); cbn [andb]; [|split; [intros []|intros (_ & _ & C); discriminate]].
      destruct (N.eqb_spec (n_seen v) 0) as [S|S].
      * split; [intros [I|[]]; injection I as <-; auto|intros (-> & _); now left].
      * split; [intros []|intros (_ & C & _); contradiction].
Qed.
Lemma said_kick v id : In (n_serial v, Kick id) (said v) <-> id = ident rid /\ mine v = true.
Proof.
  unfold said. destruct (gone v) eqn:G.
  - split; [intros [I|[]]; discriminate|]. intros [_ M]. exfalso. unfold gone, mine in *. apply andb_prop in G as [_ G]. apply andb_prop in M as [_ M].
    destruct (mget groups (w_nick (n_win v))); discriminate.
  - destruct (mine v) eqn:M.
    + split; [intros [I|[]]; injection I as <-; auto|intros (-> & _); now left].
    + split; [|intros [_ C]; discriminate]. destruct (concerned v && (n_seen v =? 0)); intros I; [destruct I as [I|[]]; discriminate|destruct I].
Qed.
End Tell.

(** ** Histories *)

(** Serial numbers are distinct and below the next one. *)
Definition sane (c : client) : Prop := NoDup (map n_serial (c_wins c)) /\ forall v, In v (c_wins c) -> (n_serial v < c_next c)%nat.

Lemma in_drop {A} k (l : list A) x : In x (drop_nth k l) -> In x l.
Proof. revert k. induction l as [|y l IH]; intros [|k]; cbn; auto. intros [<-|I]; eauto. Qed.
Lemma map_drop {A B} (f : A -> B) k (l : list A) : map f (drop_nth k l) = drop_nth k (map f l).
Proof. revert k. induction l as [|y l IH]; intros [|k]; cbn; auto. now rewrite IH. Qed.
Lemma drop_nodup {A} k (l : list A) : NoDup l -> NoDup (drop_nth k l).
Proof.
  revert k. induction l as [|y l IH]; intros [|k] ND; cbn; auto; inversion ND; subst; auto. constructor; auto. intros I. apply in_drop in I. contradiction.
Qed.

Lemma same_serials c ws : map n_serial ws = map n_serial (c_wins c) -> sane c -> sane (with_wins c ws).
Proof.
  intros E [S1 S2]. split; cbn [c_wins c_next with_wins]; [now rewrite E|]. intros v I. apply (in_map n_serial) in I. rewrite E in I.
  apply in_map_iff in I as (u & <- & J). now apply S2.
Qed.

Lemma happen_sane c h c' out : happen c h = Some (c', out) -> sane c -> sane c'.
Proof.
  intros H S. pose proof S as [S1 S2]. destruct h as [id text code|w|k| |k|f g]; cbn [happen] in H.
  - unfold handle_ack in H. destruct (code =? user_disabled); [|injection H as <- _; exact S].
    destruct (handle_disabled c id) as [[c1 o1]|] eqn:D; [|discriminate]. injection H as <- _. unfold handle_disabled in D.
    destruct (book_find c id) as [rid|]; [|injection D as <- _; exact S].
    destruct (tell _ _ _ _) as [[ws o]|] eqn:T; [|discriminate]. injection D as <- _. apply same_serials; auto. now apply tell_some in T.
  - injection H as <- _. split; cbn [c_wins c_next].
    + rewrite map_app. cbn [map n_serial].
      apply (NoDup_Add (a := c_next c) (l := map n_serial (c_wins c))); [rewrite <- (app_nil_r (map n_serial (c_wins c))) at 1; apply Add_app|].
      split; auto. rewrite in_map_iff. intros (v & E & I). apply S2 in I. lia.
    + intros v I. apply in_app_or in I as [I|[<-|[]]]; cbn; [apply S2 in I; lia|lia].
  - injection H as <- _. destruct k; [now destruct S; split|]. split; cbn [c_wins c_next with_wins].
    + rewrite map_drop. now apply drop_nodup.
    + intros v I. apply in_drop in I. now apply S2.
  - injection H as <- _. split; cbn [c_wins c_next with_wins]; destruct (c_wins c) as [|x r]; cbn; auto; try constructor; auto; try constructor.
    intros v [<-|[]]. apply S2. now left.
  - injection H as <- _. exact S.
  - injection H as <- _. exact S.
Qed.
Lemma started_sane me : sane (started me).
Proof. split; cbn; [repeat constructor; auto|]. intros v [<-|[]]. cbn. lia. Qed.

Lemma history_sane hs : forall c c' out, history c hs = Some (c', out) -> sane c -> sane c'.
Proof.
  induction hs as [|h hs IH]; cbn [history]; intros c c' out H S; [now injection H as <- _|].
  destruct (happen c h) as [[c1 o1]|] eqn:HP; [|discriminate]. destruct (history c1 hs) as [[c2 o2]|] eqn:HS; [|discriminate].
  injection H as <- _. eapply IH; eauto. eapply happen_sane; eauto.
Qed.

(** A window in which no Told can be shown any more: it was told, or it is closed. *)
Definition silent (c : client) (k : nat) : Prop := (k < c_next c)%nat /\ forall v, In v (c_wins c) -> n_serial v = k -> n_seen v <> 0.

Lemma marked_seen me groups rid v : n_seen v <> 0 -> n_seen (marked me groups rid v) <> 0.
Proof. unfold marked. destruct (concerned _ _ _ v); cbn; auto. lia. Qed.

Lemma happen_told c h c' out : happen c h = Some (c', out) -> sane c ->
  (forall k, silent c k -> silent c' k /\ forall id, ~ In (k, Told id) out) /\
  (forall k id, In (k, Told id) out -> silent c' k) /\
  (forall o1 k id o2, out = o1 ++ (k, Told id) :: o2 -> forall id', ~ In (k, Told id') o2).
Proof.
  intros H S. pose proof S as [S1 S2].
  assert (NIL : forall o1 k id (o2 : list (nat * notice)), [] = o1 ++ (k, Told id) :: o2 -> False) by (intros []; discriminate).
  destruct h as [id text code|w|k| |k|f g]; cbn [happen] in H.
  - assert (A : forall j n k id', In (k, Told id') (at_window c j (match n with CacheError t => CacheError t | Unknown i => Unknown i | Lost i => Lost i | Kick i => Kick i | Told i => Unknown i end)) -> False).
    { intros j n k id' I. unfold at_window in I. destruct (nth_error (c_wins c) j); [|destruct I]. destruct I as [I|[]]. destruct n; discriminate. }
    unfold handle_ack in H.
    set (o0 := match text with [] => [] | _ => at_window c 0 (CacheError text) end) in *.
    assert (O0 : forall k id', ~ In (k, Told id') o0).
    { intros k id' I. unfold o0 in I. destruct text; [destruct I|]. eapply (A 0%nat (CacheError (n :: text))); eauto. }
    assert (TRIV : forall o, (forall k id', ~ In (k, Told id') o) -> (forall k, silent c k -> silent c k /\ forall id, ~ In (k, Told id) o) /\
        (forall k id, In (k, Told id) o -> silent c k) /\ (forall o1 k id o2, o = o1 ++ (k, Told id) :: o2 -> forall id', ~ In (k, Told id') o2)).
    { intros o Q. split; [|split].
      - intros k K. split; [exact K|]. intros id'. apply Q.
      - intros k id' I. now apply Q in I.
      - intros p k id' q -> id2 _. apply (Q k id'). apply in_or_app. right. now left. }
    destruct (code =? user_disabled); [|injection H as <- <-; now apply TRIV].
    destruct (handle_disabled c id) as [[c1 o1]|] eqn:D; [|discriminate]. injection H as <- <-. unfold handle_disabled in D.
    destruct (book_find c id) as [rid|].
    2:{ injection D as <- <-. apply TRIV. intros k id' I. apply in_app_or in I as [I|I]; [now apply O0 in I|]. eapply (A (c_active c) (Unknown id)); eauto. }
    destruct (tell _ _ _ _) as [[ws o]|] eqn:T; [|discriminate]. injection D as <- <-.
    set (me := ident (c_me c)) in *. set (gs := c_groups c) in *.
    pose proof (tell_some me gs rid _ _ _ T) as [T1 T2].
    destruct (tell_wins me gs rid _ _ _ T) as (a & b & EA & EB & EC).
    assert (SER : forall k, In k (map n_serial (c_wins c)) -> (k < c_next c)%nat) by (intros k I; apply in_map_iff in I as (v & <- & J); auto).
    assert (MK : forall v, n_serial (marked me gs rid v) = n_serial v) by (intros v; unfold marked; now destruct (concerned me gs rid v)).
    assert (TOLD : forall k id', In (k, Told id') o -> exists ws1 v ws2, c_wins c = ws1 ++ v :: ws2 /\ k = n_serial v /\ reached rid ws1 /\ n_seen v = 0 /\ concerned me gs rid v = true).
    { intros k id' I. apply (tell_out me gs rid _ _ _ T) in I as (ws1 & v & ws2 & E & R & I). exists ws1, v, ws2.
      assert (K : k = n_serial v) by (now apply said_serial in I).
      subst k. apply said_told in I as (_ & I1 & I2). auto. }
    split; [|split].
    + intros k [K1 K2]. split.
      * split; [exact K1|]. cbn [c_wins with_wins]. intros v I E. rewrite EB in I. apply in_app_or in I as [I|I].
        { apply in_map_iff in I as (u & <- & J). rewrite MK in E. apply marked_seen. apply K2; auto. rewrite EA. apply in_or_app. now left. }
        { apply K2; auto. rewrite EA. apply in_or_app. now right. }
      * intros id' I. apply in_app_or in I as [I|I]; [now apply O0 in I|]. apply TOLD in I as (ws1 & v & ws2 & E & -> & _ & Z & _).
        apply (K2 v); auto. rewrite E. apply in_or_app. right. now left.
    + intros k id' I. apply in_app_or in I as [I|I]; [now apply O0 in I|]. apply TOLD in I as (ws1 & v & ws2 & E & -> & R & Z & CN).
      split; [apply SER; rewrite E, map_app; apply in_or_app; right; now left|]. cbn [c_wins with_wins]. intros u I Q.
      assert (VA : In v a).
      { destruct EC as [[-> _]|(a' & x & -> & R' & EX)].
        - rewrite app_nil_r in EA. rewrite <- EA, E. apply in_or_app. right. now left.
        - assert (Hv : In v (c_wins c)) by (rewrite E; apply in_or_app; right; now left). rewrite EA in Hv. apply in_app_or in Hv as [Hv|Hv]; auto. exfalso.
          apply in_split in Hv as (b1 & b2 & ->). rewrite EA in E. rewrite EA in S1.
          assert (ws1 = (a' ++ [x]) ++ b1) as ->.
          { symmetry. apply (split_at _ b2 _ ws2 v); [|rewrite <- app_assoc; exact E]. rewrite <- app_assoc. exact S1. }
          specialize (R x). rewrite R in EX; [discriminate|]. apply in_or_app. left. apply in_or_app. right. now left. }
      rewrite EB in I. apply in_app_or in I as [I|I].
      * apply in_map_iff in I as (y & <- & J). rewrite MK in Q.
        assert (y = v) as -> by (apply (serial_eq _ y v S1); auto; rewrite EA; apply in_or_app; now left).
        unfold marked. rewrite CN. cbn. lia.
      * exfalso. assert (u = v) as -> by (apply (serial_eq _ u v S1); auto; rewrite EA; apply in_or_app; [now right|now left]).
        rewrite EA, map_app in S1. clear - S1 VA I. induction a as [|x a IH]; [destruct VA|]. cbn in S1. inversion S1; subst.
        destruct VA as [<-|VA]; auto. apply H1. apply in_or_app. right. now apply in_map.
    + intros p k id' q E id2. 
      assert (ON : forall x, In x (map fst (filter (fun kn => match snd kn with Told _ => true | _ => false end) o)) -> In x (map n_serial (c_wins c))).
      { intros x I. apply in_map_iff in I as ([x' n] & <- & I). apply filter_In in I as [I _]. eapply T2; eauto. }
      assert (ND : NoDup (map fst (filter (fun kn : nat * notice => match snd kn with Told _ => true | _ => false end) o))).
      { clear - T S1. revert T S1. generalize dependent ws. generalize dependent o. induction (c_wins c) as [|v r IH]; intros o ws T ND.
        - cbn in T. injection T as <- <-. constructor.
        - rewrite tell_cons in T. destruct (fatal _ v); [discriminate|]. destruct (ends _ v).
          + injection T as <- <-. repeat constructor. intros [].
          + destruct (tell me gs rid r) as [[r' o']|] eqn:TR; [|discriminate]. injection T as <- <-. inversion ND as [|? ? N ND']; subst.
            specialize (IH _ _ eq_refl ND'). rewrite filter_app, map_app.
            unfold said. destruct (gone gs v); [|destruct (mine me gs v)]; [| |destruct (concerned me gs rid v && (n_seen v =? 0))]; cbn [filter map fst snd app]; auto.
            constructor; auto. intros I. apply N. apply in_map_iff in I as ([x n] & E & I). cbn in E. subst x. apply filter_In in I as [I _].
            eapply tell_some in TR as [_ TR]. eapply TR; eauto. }
      assert (FI : filter (fun kn : nat * notice => match snd kn with Told _ => true | _ => false end) (o0 ++ o) =
                   filter (fun kn : nat * notice => match snd kn with Told _ => true | _ => false end) o).
      { rewrite filter_app. replace (filter _ o0) with (@nil (nat * notice)); auto. symmetry. clear - O0. induction o0 as [|[x n] r IH]; auto.
        cbn. destruct n; try (apply IH; intros; intros I; eapply O0; right; eauto). exfalso. eapply O0. now left. }
      rewrite <- FI, E, filter_app, map_app in ND. cbn [filter snd map fst] in ND.
      intros I. assert (J : In k (map fst (filter (fun kn : nat * notice => match snd kn with Told _ => true | _ => false end) q))).
      { apply in_map_iff. exists (k, Told id2). split; auto. apply filter_In. auto. }
      apply NoDup_remove_2 in ND. apply ND. apply in_or_app. now right.
  - injection H as <- <-. split; [|split; [intros ? ? []|intros; exfalso; eapply NIL; eauto]]. intros k [K1 K2]. split; auto. split; cbn; [lia|].
    intros v I E. apply in_app_or in I as [I|[<-|[]]]; [now apply K2|]. cbn in E. lia.
  - injection H as <- <-. split; [|split; [intros ? ? []|intros; exfalso; eapply NIL; eauto]]. intros j [K1 K2]. split; auto. split; cbn; auto.
    intros v I E. apply K2; auto. destruct k; auto. now apply in_drop in I.
  - injection H as <- <-. split; [|split; [intros ? ? []|intros; exfalso; eapply NIL; eauto]]. intros j [K1 K2]. split; auto. split; cbn; auto.
    intros v I E. apply K2; auto. destruct (c_wins c); cbn in I; [destruct I|destruct I as [<-|[]]; now left].
  - injection H as <- <-. split; [|split; [intros ? ? []|intros; exfalso; eapply NIL; eauto]]. auto.
  - injection H as <- <-. split; [|split; [intros ? ? []|intros; exfalso; eapply NIL; eauto]]. auto.
Qed.

Lemma history_silent hs : forall c c' out k, history c hs = Some (c', out) -> sane c -> silent c k -> forall id, ~ In (k, Told id) out.
Proof.
  induction hs as [|h hs IH]; cbn [history]; intros c c' out k H S K; [injection H as <- <-; intros ? []|].
  destruct (happen c h) as [[c1 o1]|] eqn:HP; [|discriminate]. destruct (history c1 hs) as [[c2 o2]|] eqn:HS; [|discriminate].
  injection H as <- <-. destruct (happen_told _ _ _ _ HP S) as (A & _). destruct (A _ K) as [A1 A2]. intros id I. apply in_app_or in I as [I|I].
  - now apply A2 in I.
  - eapply IH; eauto. eapply happen_sane; eauto.
Qed.

Lemma history_once hs : forall c c' out, history c hs = Some (c', out) -> sane c ->
  forall o1 k id o2, out = o1 ++ (k, Told id) :: o2 -> forall id', ~ In (k, Told id') o2.
Proof.
  induction hs as [|h hs IH]; cbn [history]; intros c c' out H S o1 k id o2 E id' I; [injection H as <- <-; now destruct o1|].
  destruct (happen c h) as [[c1 a]|] eqn:HP; [|discriminate]. destruct (history c1 hs) as [[c2 b]|] eqn:HS; [|discriminate].
  injection H as <- <-. pose proof (happen_sane _ _ _ _ HP S) as SN. destruct (happen_told _ _ _ _ HP S) as (A & B & C).
  apply app_eq_app in E as (l & [[-> E]|[-> E]]).
  - destruct l as [|x l]; cbn in E.
    + subst b. eapply (IH _ _ _ HS SN [] k id o2); eauto.
    + injection E as <- ->. apply in_app_or in I as [I|I]; [eapply (C o1 k id l); eauto|].
      eapply history_silent; eauto. apply (B k id). apply in_or_app. right. now left.
  - eapply (IH _ _ _ HS SN l k id o2); eauto.
Qed.

Lemma history_keeps_silent hs : forall c c' out k, history c hs = Some (c', out) -> sane c -> silent c k -> silent c' k.
Proof.
  induction hs as [|h hs IH]; cbn [history]; intros c c' out k H S K; [now injection H as <- <-|].
  destruct (happen c h) as [[c1 o1]|] eqn:HP; [|discriminate]. destruct (history c1 hs) as [[c2 o2]|] eqn:HS; [|discriminate].
  injection H as <- <-. destruct (happen_told _ _ _ _ HP S) as (A & _). destruct (A _ K) as [A1 _]. eapply IH; eauto. eapply happen_sane; eauto.
Qed.
Lemma history_told hs : forall c c' out, history c hs = Some (c', out) -> sane c -> forall k id, In (k, Told id) out -> silent c' k.
Proof.
  induction hs as [|h hs IH]; cbn [history]; intros c c' out H S k id I; [injection H as <- <-; destruct I|].
  destruct (happen c h) as [[c1 o1]|] eqn:HP; [|discriminate]. destruct (history c1 hs) as [[c2 o2]|] eqn:HS; [|discriminate].
  injection H as <- <-. pose proof (happen_sane _ _ _ _ HP S) as SN. destruct (happen_told _ _ _ _ HP S) as (_ & B & _). apply in_app_or in I as [I|I].
  - eapply history_keeps_silent; eauto.
  - eapply IH; eauto.
Qed.

(** A window whose counter is not 0 was told. *)
Lemma tell_seen me gs rid ws ws' out : tell me gs rid ws = Some (ws', out) -> forall v', In v' ws' -> n_seen v' <> 0 ->
  (exists v, In v ws /\ n_serial v = n_serial v' /\ n_seen v <> 0) \/ In (n_serial v', Told (ident rid)) out.
Proof.
  intros T v' I NZ. destruct (tell_wins me gs rid _ _ _ T) as (a & b & EA & EB & EC).
  assert (MK : forall v, n_serial (marked me gs rid v) = n_serial v) by (intros v; unfold marked; now destruct (concerned me gs rid v)).
  rewrite EB in I. apply in_app_or in I as [I|I].
  - apply in_map_iff in I as (u & <- & J). rewrite MK. destruct (N.eq_dec (n_seen u) 0) as [Z|Z].
    + right. destruct (concerned me gs rid u) eqn:CN; [|unfold marked in NZ; rewrite CN in NZ; contradiction].
      apply (tell_out me gs rid _ _ _ T). apply in_split in J as (a1 & a2 & ->). exists a1, u, (a2 ++ b). rewrite EA, <- app_assoc. split; auto. split.
      * destruct EC as [[_ R]|(a' & x & E & R & _)]; [intros v Hv; apply R; apply in_or_app; now left|].
        destruct a2 as [|y a2] using rev_ind.
        { apply app_inj_tail in E as [-> _]. exact R. }
        { rewrite app_comm_cons, app_assoc in E. apply app_inj_tail in E as [<- _]. intros v Hv. apply R. apply in_or_app. now left. }
      * apply said_told. auto.
    + left. exists u. split; [rewrite EA; apply in_or_app; now left|auto].
  - left. exists v'. split; auto. rewrite EA. apply in_or_app. now right.
Qed.
Lemma happen_seen c h c' out : happen c h = Some (c', out) -> forall v', In v' (c_wins c') -> n_seen v' <> 0 ->
  (exists v, In v (c_wins c) /\ n_serial v = n_serial v' /\ n_seen v <> 0) \/ exists id, In (n_serial v', Told id) out.
Proof.
  intros H v' I NZ. destruct h as [id text code|w|k| |k|f g]; cbn [happen] in H.
  - unfold handle_ack in H. destruct (code =? user_disabled); [|injection H as <- <-; eauto].
    destruct (handle_disabled c id) as [[c1 o1]|] eqn:D; [|discriminate]. injection H as <- <-. unfold handle_disabled in D.
    destruct (book_find c id) as [rid|]; [|injection D as <- <-; eauto].
    destruct (tell _ _ _ _) as [[ws o]|] eqn:T; [|discriminate]. injection D as <- <-. cbn [c_wins with_wins] in I.
    destruct (tell_seen _ _ _ _ _ _ T v' I NZ) as [X|X]; auto. right. exists (ident rid). apply in_or_app. now right.
  - injection H as <- <-. cbn in I. apply in_app_or in I as [I|[<-|[]]]; eauto. now destruct NZ.
  - injection H as <- <-. cbn in I. left. exists v'. split; auto. destruct k; auto. now apply in_drop in I.
  - injection H as <- <-. cbn in I. left. exists v'. split; auto. destruct (c_wins c); cbn in I; [destruct I|destruct I as [<-|[]]; now left].
  - injection H as <- <-. eauto.
  - injection H as <- <-. eauto.
Qed.
Lemma history_seen hs : forall c c' out, history c hs = Some (c', out) -> forall v', In v' (c_wins c') -> n_seen v' <> 0 ->
  (exists v, In v (c_wins c) /\ n_serial v = n_serial v' /\ n_seen v <> 0) \/ exists id, In (n_serial v', Told id) out.
Proof.
  induction hs as [|h hs IH]; cbn [history]; intros c c' out H v' I NZ; [injection H as <- <-; eauto|].
  destruct (happen c h) as [[c1 o1]|] eqn:HP; [|discriminate]. destruct (history c1 hs) as [[c2 o2]|] eqn:HS; [|discriminate].
  injection H as <- <-. destruct (IH _ _ _ HS v' I NZ) as [(v & I1 & I2 & I3)|[id X]].
  - destruct (happen_seen _ _ _ _ HP v I1 I3) as [(u & U1 & U2 & U3)|[id X]].
    + left. exists u. rewrite U2. auto.
    + right. exists id. rewrite I2 in X. apply in_or_app. now left.
  - right. exists id. apply in_or_app. now right.
Qed.

(** The console stays first. *)
Definition console_first (c : client) : Prop := exists v r, c_wins c = v :: r /\ n_serial v = O.
Lemma happen_console c h c' out : happen c h = Some (c', out) -> console_first c -> console_first c'.
Proof.
  intros H (v & r & E & Z). destruct h as [id text code|w|k| |k|f g]; cbn [happen] in H.
  - unfold handle_ack in H. destruct (code =? user_disabled); [|injection H as <- <-; exists v, r; auto].
    destruct (handle_disabled c id) as [[c1 o1]|] eqn:D; [|discriminate]. injection H as <- <-. unfold handle_disabled in D.
    destruct (book_find c id) as [rid|]; [|injection D as <- <-; exists v, r; auto].
    destruct (tell _ _ _ _) as [[ws o]|] eqn:T; [|discriminate]. injection D as <- <-. apply tell_some in T as [T _]. rewrite E in T.
    destruct ws as [|u ws]; [discriminate|]. injection T as T _. exists u, ws. split; auto. now rewrite T.
  - injection H as <- <-. exists v, (r ++ [mkNwin (c_next c) w 0]). cbn. rewrite E. auto.
  - injection H as <- <-. destruct k; [exists v, r; auto|]. exists v, (drop_nth k r). cbn. rewrite E. auto.
  - injection H as <- <-. exists v, []. cbn. rewrite E. auto.
  - injection H as <- <-. exists v, r; auto.
  - injection H as <- <-. exists v, r; auto.
Qed.
Lemma history_console hs : forall c c' out, history c hs = Some (c', out) -> console_first c -> console_first c'.
Proof.
  induction hs as [|h hs IH]; cbn [history]; intros c c' out H F; [now injection H as <- _|].
  destruct (happen c h) as [[c1 o1]|] eqn:HP; [|discriminate]. destruct (history c1 hs) as [[c2 o2]|] eqn:HS; [|discriminate].
  injection H as <- _. eapply IH; eauto. eapply happen_console; eauto.
Qed.
