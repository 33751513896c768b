(** Group chats: who may join and change a group, whose messages are shown, kicks. *)
From Verif Require Import Base IniModel IniMemProofs IniFileProofs XdrModel XdrProofs RpcModel RpcProofs StrconvModel HexModel CrpcModel BlobModel BlobProps AcctProofs ServerDbModel ServerDbProofs UiModel Utf8Model GroupModel GroupProofs.
From Verif Require IniDiskProofs.
Local Open Scope N_scope.

(** * C33: joining *)

(** The result of one join request.  It succeeds exactly if the receiver
    administers the group, the sender holds an invitation with this token, is in the
    address book and not yet among the other members, and the group can be written.
    Then the sender becomes the last member and everybody is told; otherwise no
    group changes and nothing is sent. *)
Theorem C33_effect : forall s c from gj known w o c',
  gstep s c (RJoin from gj known w) o c' ->
  let n := GroupJoin_Name gj in
  let may g others := mget (c_groups c) n = Some g /\ GroupList_Members g = i_id s :: others /\
    token_for (c_invites c) n from = Some (GroupJoin_Token gj) /\ known from = true /\ ~ In from others /\
    valid_name n = true /\ dir_name n = false /\ w = Written in
  (o_result o = Fine /\ exists g others, may g others /\
     let g' := mkGroupList (GroupList_Name g) ((GroupList_Generation g + 2) mod 2 ^ 64) (GroupList_Timestamp g) (GroupList_Members g ++ [from]) in
     mget (c_groups c') n = Some g' /\ mget (c_disk c') n = Some (enc GroupList_codec g') /\
     (forall m, m <> n -> mget (c_groups c') m = mget (c_groups c) m /\ mget (c_disk c') m = mget (c_disk c) m) /\
     o_sent o = map (fun m => (m, GList g')) (others ++ [from])) \/
  (o_result o = Error /\ (forall g others, ~ may g others) /\ o_sent o = [] /\
     (forall m, mget (c_groups c') m = mget (c_groups c) m) /\ forall m, m <> n -> mget (c_disk c') m = mget (c_disk c) m).
Proof.
  intros s c from gj known w o c' H n may. cbn [gstep] in H. unfold handle_join in H. fold n in H.
  destruct (mget (c_groups c) n) as [g|] eqn:G.
  2:{ right. destruct H as [-> ->]. split; auto. split; [intros g others (X & _); congruence|auto]. }
  destruct (GroupList_Members g) as [|a others] eqn:M.
  { right. destruct H as [-> ->]. split; auto. split; [intros g0 others (X & Y & _); congruence|auto]. }
  destruct (eqb_spec a (i_id s)) as [Q|Q]; cbn [negb] in H.
  2:{ right. destruct H as [-> ->]. split; auto. split; [intros g0 o0 (X & Y & _); congruence|auto]. }
  destruct H as (ok & f' & D & H). apply del_invite_ok in D. destruct D as [D D2]. fold n in D.
  destruct ok; cbn [negb] in H.
  2:{ right. destruct H as [-> ->]. split; auto. split; [intros g0 o0 (X & Y & Z & _); apply D in Z; discriminate|auto]. }
  destruct (known from) eqn:Kn; cbn [negb] in H.
  2:{ right. destruct H as [-> ->]. split; auto. split; [intros g0 o0 (X & Y & Z & Y2 & _); congruence|auto]. }
  destruct (mem from others) eqn:Me.
  { right. destruct H as [-> ->]. split; auto. split; [|auto]. intros g0 o0 (X & Y & Z & Y2 & Y3 & _). apply mem_In in Me.
    assert (o0 = others) by congruence. congruence. }
  assert (NX : next (next (GroupList_Generation g)) = (GroupList_Generation g + 2) mod 2 ^ 64).
  { unfold next. rewrite N.add_mod_idemp_l by discriminate. f_equal. lia. }
  rewrite NX in H. clear NX.
  destruct (save_group _ _ _) as [c2 b] eqn:S. pose proof S as S0. apply save_frame in S.
  destruct S as (E & _ & _ & _ & Dk & Sv). cbn [set_groups c_groups set_invites c_disk] in *. destruct b; destruct H as [-> ->].
  - left. split; auto. destruct (Sv eq_refl) as (V & Dn & W & g1 & G1 & Dg). rewrite mget_mset_eq in G1.
    apply (f_equal (fun o => match o with Some y => y | None => g1 end)) in G1. cbv beta iota in G1. subst g1.
    rewrite <- M in *. exists g, others. split.
    { split; auto. split; [congruence|]. split; [now apply D|]. split; auto. split; [now apply mem_false|]. auto. }
    split; [rewrite E; apply mget_mset_eq|]. split; [exact Dg|]. split; [|reflexivity].
    intros m Hm. split; auto. rewrite E. now apply mget_mset_ne.
  - right. split; auto. split; [|split; [reflexivity|split]].
    + intros g0 o0 (_ & _ & _ & _ & _ & V & Dn & ->). unfold save_group in S0. rewrite V, Dn in S0.
      cbn [negb set_groups c_groups set_invites] in S0. rewrite mget_mset_eq in S0. discriminate.
    + intros m. cbn [set_groups c_groups]. rewrite E, !mget_mset. destruct (eqb_spec m n); congruence.
    + intros m Hm. cbn [set_groups c_disk]. auto.
Qed.
Print Assumptions C33_effect.

(** What the inputs of a client are like: it invites existing identities to groups
    with names of the letters validName allows, and the nicks fit the encoding. *)
Definition event_ok (e : event) : Prop :=
  match e with
  | CInvite n who nicks draw expires => valid_name n = true /\ n <> [] /\ identity who /\
      forall t, t < 1000000 -> invite_ok (mkGroupInvite n nicks t (bs "come join me!") expires)
  | RJoin from _ _ _ => identity from
  | _ => True
  end.
Definition events_ok (h : list (event * out)) : Prop := Forall (fun x => event_ok (fst x)) h.

(** [who] was sent an invitation to [n] with the token [t]. *)
Definition invites (n who : bytes) (t : N) (x : event * out) : Prop :=
  exists nicks draw expires gi, x = (CInvite n who nicks draw expires, mkOut Fine [(who, GInvite gi)] None) /\
    GroupInvite_Name gi = n /\ GroupInvite_Token gi = t.
(** [who] asked to join [n] with the token [t]; [who] joined [n]. *)
Definition asks (n who : bytes) (t : N) (x : event * out) : Prop :=
  exists gj known w o, x = (RJoin who gj known w, o) /\ GroupJoin_Name gj = n /\ GroupJoin_Token gj = t.
Definition joins (n who : bytes) (x : event * out) : Prop :=
  exists gj known w o, x = (RJoin who gj known w, o) /\ GroupJoin_Name gj = n /\ o_result o = Fine.

Lemma token_for_step file file' n1 who1 v n who :
  (forall n0 k0, entry file' n0 k0 = if eqb n0 n1 && eqb k0 (hex_encode who1) then v else entry file n0 k0) ->
  identity who -> identity who1 ->
  token_for file' n who = if eqb n n1 && eqb who who1
    then match v with Some v => match unmarshal_invite v with Some gi => Some (GroupInvite_Token gi) | None => None end | None => None end
    else token_for file n who.
Proof.
  intros E [_ I] [_ I1]. unfold token_for. rewrite E. destruct (eqb_spec n n1); cbn [andb]; auto.
  destruct (eqb_spec who who1) as [Q|Q]; [rewrite Q, eqb_refl; reflexivity|].
  destruct (eqb_spec (hex_encode who) (hex_encode who1)) as [R|R]; auto. apply hex_inj in R; auto. congruence.
Qed.

Lemma ledger s h c : grun s new_client h c -> events_ok h ->
  sound (c_invites c) /\
  (forall n who t, identity who -> token_for (c_invites c) n who = Some t ->
     exists h1 x h2, h = h1 ++ x :: h2 /\ invites n who t x /\ forall y, In y h1 -> ~ joins n who y) /\
  (forall n who t h1 x h2, h = h1 ++ x :: h2 -> invites n who t x -> (forall y, In y h1 -> ~ asks n who t y) ->
     token_for (c_invites c) n who = Some t).
Proof.
  intros R. induction R as [|h c e o c' R IH S]; intros OK.
  { split; [exact I|]. split; [intros n who t _ X; discriminate|]. intros n who t h1 x h2 E. destruct h1; discriminate. }
  inversion OK as [|? ? OKe OKh]; subst. cbn [fst] in OKe. destruct (IH OKh) as (Sd & A & B). clear IH.
  (* nothing happened to the invitations *)
  assert (Same : sound (c_invites c') -> (forall n who, token_for (c_invites c') n who = token_for (c_invites c) n who) ->
    (forall n who t, identity who -> ~ invites n who t (e, o)) -> (forall n who, ~ joins n who (e, o)) ->
    sound (c_invites c') /\
    (forall n who t, identity who -> token_for (c_invites c') n who = Some t ->
       exists h1 x h2, (e, o) :: h = h1 ++ x :: h2 /\ invites n who t x /\ forall y, In y h1 -> ~ joins n who y) /\
    (forall n who t h1 x h2, (e, o) :: h = h1 ++ x :: h2 -> invites n who t x -> (forall y, In y h1 -> ~ asks n who t y) ->
       token_for (c_invites c') n who = Some t)).
  { intros Sd' T NI NJ. split; auto. split.
    - intros n who t Id E. rewrite T in E. destruct (A _ _ _ Id E) as (h1 & x & h2 & -> & I & J).
      exists ((e, o) :: h1), x, h2. split; auto. split; auto. intros y [<-|Y]; auto.
    - intros n who t h1 x h2 E I J. rewrite T. destruct h1 as [|y h1]; cbn [app] in E.
      + injection E as <- _. exfalso. pose proof I as (nicks & draw & ex & gi & X & _).
        apply (NI n who t); auto. injection X as X _. subst e. apply OKe.
      + injection E as _ E. eapply B; eauto. intros z Z. apply J. now right. }
  pose proof (step_invites _ _ _ _ _ S) as F.
  destruct e;
    try (apply Same; [rewrite F; exact Sd|intros; rewrite F; reflexivity
         |intros n0 who0 t0 _ (x1 & x2 & x3 & x4 & X & _); discriminate
         |intros n0 who0 (x1 & x2 & x3 & x4 & X & _); discriminate]).
  - (* CInvite *)
    clear F. destruct OKe as (V & NE & Id & IOK). cbn [gstep] in S. unfold gc_invite in S.
    assert (NJ : forall n1 who1 o1, ~ joins n1 who1 (CInvite n who nicks draw expires, o1)) by (intros n0 who0 o0 (x1 & x2 & x3 & x4 & X & _); discriminate).
    assert (NE0 : forall n1 who1 t1, ~ invites n1 who1 t1 (CInvite n who nicks draw expires, error)) by (intros n0 who0 t0 (x1 & x2 & x3 & x4 & X & _); discriminate).
    destruct (mget (c_groups c) n) as [g|] eqn:G; [|destruct S as [-> ->]; apply Same; auto].
    destruct (admin g) as [a|]; [|destruct S as [-> ->]; apply Same; auto].
    destruct (negb (eqb a (i_id s))); [destruct S as [-> ->]; apply Same; auto|].
    destruct (mem who (GroupList_Members g)); [destruct S as [-> ->]; apply Same; auto|].
    destruct S as (r & f' & Add & -> & O). destruct (run_keyed _ _ _ R) as [K _]. rewrite (K _ _ G) in Add.
    destruct (invite_add_spec _ _ _ _ _ _ _ _ Sd Id (valid_clean _ V) NE (fun x => IOK _ (N.mod_lt x 1000000 ltac:(discriminate))) Add) as (Sd' & E).
    cbn [set_invites c_invites] in *. destruct r as [gi|].
    + destruct E as (E0 & (x & Dx & Gx) & E). subst o.
      assert (IO : invite_ok gi) by (rewrite Gx; apply IOK, N.mod_lt; discriminate).
      assert (T : forall n0 who0, identity who0 -> token_for f' n0 who0 =
        if eqb n0 n && eqb who0 who then Some (GroupInvite_Token gi) else token_for (c_invites c) n0 who0).
      { intros n0 who0 I0. rewrite (token_for_step _ _ _ _ _ n0 who0 E I0 Id), stored_round by auto. reflexivity. }
      split; auto. split.
      * intros n0 who0 t0 I0 X. rewrite T in X by auto. destruct (eqb_spec n0 n) as [Q|Q]; [destruct (eqb_spec who0 who) as [Q2|Q2]|]; cbn [andb] in X.
        -- injection X as <-. subst n0 who0. exists [], (CInvite n who nicks draw expires, mkOut Fine [(who, GInvite gi)] None), h.
           split; auto. split; [|intros y []]. exists nicks, draw, expires, gi. split; auto. split; auto. now rewrite Gx.
        -- destruct (A _ _ _ I0 X) as (h1 & y & h2 & -> & Iy & J). eexists (_ :: h1), y, h2. split; [reflexivity|]. split; auto.
           intros z [<-|Z]; [apply NJ|auto].
        -- destruct (A _ _ _ I0 X) as (h1 & y & h2 & -> & Iy & J). eexists (_ :: h1), y, h2. split; [reflexivity|]. split; auto.
           intros z [<-|Z]; [apply NJ|auto].
      * intros n0 who0 t0 h1 y h2 X Iy J. destruct h1 as [|z h1]; cbn [app] in X.
        -- injection X as <- _. destruct Iy as (x1 & x2 & x3 & x4 & Y & N4 & T4). injection Y as Y1 Y2 _ _ _ _ Y3. rewrite <- Y1, <- Y2.
           rewrite T by auto. rewrite !eqb_refl. cbn [andb]. congruence.
        -- injection X as _ X.
           assert (I0 : identity who0).
           { pose proof Iy as (x1 & x2 & x3 & x4 & -> & _). unfold events_ok in OKh. rewrite Forall_forall in OKh.
             assert (In (CInvite n0 who0 x1 x2 x3, mkOut Fine [(who0, GInvite x4)] None) h) as II
               by (rewrite X; apply in_or_app; right; now left).
             apply OKh in II. apply II. }
           assert (Old : token_for (c_invites c) n0 who0 = Some t0) by (eapply B; eauto; intros u U; apply J; now right).
           rewrite T by auto. destruct (eqb_spec n0 n) as [Q|Q]; [destruct (eqb_spec who0 who) as [Q2|Q2]|]; cbn [andb]; auto.
           subst n0 who0. unfold token_for in Old. rewrite E0 in Old. discriminate.
    + destruct E as [_ E]. subst o. apply Same; [exact Sd'|intros n0 who0; unfold token_for; now rewrite E|intros; apply NE0|intros; apply NJ].
  - (* RJoin *)
    clear F. cbn [event_ok] in OKe. cbn [gstep] in S. unfold handle_join in S.
    assert (NI : forall n who t o0, ~ invites n who t (RJoin from gj known w, o0)) by (intros n0 who0 t0 o0 (x1 & x2 & x3 & x4 & X & _); discriminate).
    assert (NJ : forall n1 who1, ~ joins n1 who1 (RJoin from gj known w, error)).
    { intros n0 who0 (x1 & x2 & x3 & x4 & X & _ & Y). injection X as _ _ _ _ <-. discriminate. }
    destruct (mget (c_groups c) (GroupJoin_Name gj)) as [g|]; [|destruct S as [-> ->]; apply Same; auto].
    destruct (GroupList_Members g) as [|a others]; [destruct S as [-> ->]; apply Same; auto|].
    destruct (negb (eqb a (i_id s))); [destruct S as [-> ->]; apply Same; auto|].
    destruct S as (ok & f' & D & S). pose proof (del_invite_ok _ _ _ _ _ D) as [D1 D2].
    assert (CI : c_invites c' = f').
    { destruct ok; cbn [negb] in S; [|destruct S as [_ ->]; reflexivity].
      destruct (known from); cbn [negb] in S; [|destruct S as [_ ->]; reflexivity].
      destruct (mem from others); [destruct S as [_ ->]; reflexivity|].
      destruct (save_group _ _ _) as [c2 b] eqn:Sv. apply save_frame in Sv. destruct Sv as (_ & X & _). cbn in X.
      destruct b; destruct S as [_ ->]; auto. }
    destruct ok.
    + destruct (del_invite_spec _ _ _ _ Sd D) as [Sd' E]. rewrite <- CI in *.
      assert (T : forall n0 who0, identity who0 -> token_for (c_invites c') n0 who0 =
        if eqb n0 (GroupJoin_Name gj) && eqb who0 from then None else token_for (c_invites c) n0 who0).
      { intros n0 who0 I0. now rewrite (token_for_step _ _ _ _ _ n0 who0 E I0 OKe). }
      split; auto. split.
      * intros n0 who0 t0 I0 X. rewrite T in X by auto.
        destruct (eqb_spec n0 (GroupJoin_Name gj)) as [Q|Q]; [destruct (eqb_spec who0 from) as [Q2|Q2]|]; cbn [andb] in X; [discriminate| |];
          (destruct (A _ _ _ I0 X) as (h1 & y & h2 & -> & Iy & J); eexists (_ :: h1), y, h2; split; [reflexivity|]; split; auto;
           intros z [<-|Z]; auto; intros (x1 & x2 & x3 & x4 & Y & Y2 & _); injection Y as -> -> _ _ _; congruence).
      * intros n0 who0 t0 h1 y h2 X Iy J. destruct h1 as [|z h1]; cbn [app] in X.
        { injection X as <- _. exfalso. eapply NI; eauto. }
        assert (Jz : ~ asks n0 who0 t0 z) by (apply J; now left). injection X as <- X.
        assert (I0 : identity who0).
        { pose proof Iy as (x1 & x2 & x3 & x4 & -> & _). unfold events_ok in OKh. rewrite Forall_forall in OKh.
          assert (In (CInvite n0 who0 x1 x2 x3, mkOut Fine [(who0, GInvite x4)] None) h) as II
            by (rewrite X; apply in_or_app; right; now left).
          apply OKh in II. apply II. }
        assert (Old : token_for (c_invites c) n0 who0 = Some t0) by (eapply B; eauto; intros u U; apply J; now right).
        rewrite T by auto.
        destruct (eqb_spec n0 (GroupJoin_Name gj)) as [Q|Q]; [destruct (eqb_spec who0 from) as [Q2|Q2]|]; cbn [andb]; auto.
        exfalso. apply Jz. subst n0 who0. exists gj, known, w, o. split; auto. split; auto.
        pose proof (proj1 D1 eq_refl). congruence.
    + cbn [negb] in S. destruct S as [-> _]. rewrite (D2 eq_refl) in CI.
      apply Same; [rewrite CI; exact Sd|intros; now rewrite CI|intros; apply NI|intros; apply NJ].
Qed.

(** Whoever joins was invited to that group with that token, and has not joined it
    since then: every invitation admits at most once. *)
Theorem C33_issued : forall s h c from gj known w o,
  grun s new_client ((RJoin from gj known w, o) :: h) c -> events_ok ((RJoin from gj known w, o) :: h) ->
  o_result o = Fine ->
  exists h1 x h2, h = h1 ++ x :: h2 /\ invites (GroupJoin_Name gj) from (GroupJoin_Token gj) x /\
    forall y, In y h1 -> ~ joins (GroupJoin_Name gj) from y.
Proof.
  intros s h c from gj known w o R OK F. inversion R as [|? c0 ? ? ? R0 S]; subst. inversion OK as [|? ? OKe OKh]; subst.
  destruct (ledger _ _ _ R0 OKh) as (_ & A & _). apply A; [exact OKe|].
  destruct (C33_effect _ _ _ _ _ _ _ _ S) as [(_ & g & others & (_ & _ & T & _) & _)|(E & _)]; [exact T|congruence].
Qed.
Print Assumptions C33_issued.

(** An invitation that was not used works, whatever happened since: nothing but a
    request of that user with that token uses it up.  Its time of expiry is not
    looked at, and it outlives the group it was for. *)
Theorem C33_works : forall s h1 x h2 c from gj known g others,
  grun s new_client (h1 ++ x :: h2) c -> events_ok (h1 ++ x :: h2) ->
  invites (GroupJoin_Name gj) from (GroupJoin_Token gj) x ->
  (forall y, In y h1 -> ~ asks (GroupJoin_Name gj) from (GroupJoin_Token gj) y) ->
  mget (c_groups c) (GroupJoin_Name gj) = Some g -> GroupList_Members g = i_id s :: others ->
  known from = true -> ~ In from others -> dir_name (GroupJoin_Name gj) = false ->
  (exists o c', gstep s c (RJoin from gj known Written) o c') /\
  forall o c', gstep s c (RJoin from gj known Written) o c' -> o_result o = Fine.
Proof.
  intros s h1 x h2 c from gj known g others R OK I J G M Kn NI Dn.
  destruct (ledger _ _ _ R OK) as (_ & _ & B). pose proof (B _ _ _ _ _ _ eq_refl I J) as T.
  assert (V : valid_name (GroupJoin_Name gj) = true).
  { destruct I as (x1 & x2 & x3 & x4 & -> & _). unfold events_ok in OK. rewrite Forall_forall in OK.
    assert (In (CInvite (GroupJoin_Name gj) from x1 x2 x3, mkOut Fine [(from, GInvite x4)] None)
      (h1 ++ (CInvite (GroupJoin_Name gj) from x1 x2 x3, mkOut Fine [(from, GInvite x4)] None) :: h2)) as II
      by (apply in_or_app; right; now left).
    apply OK in II. apply II. }
  split.
  - cbn [gstep]. unfold handle_join. rewrite G, M. destruct (eqb_spec (i_id s) (i_id s)) as [_|]; [|congruence]. cbn [negb].
    destruct (del_invite_total (c_invites c) from gj) as (ok & f' & D). pose proof (del_invite_ok _ _ _ _ _ D) as [D1 _].
    rewrite (proj2 D1 T) in D. apply mem_false in NI.
    destruct (save_group (set_groups (set_invites c f') (mset (c_groups (set_invites c f')) (GroupJoin_Name gj)
      (mkGroupList (GroupList_Name g) (next (next (GroupList_Generation g))) (GroupList_Timestamp g) ((i_id s :: others) ++ [from])))) (GroupJoin_Name gj) Written) as [c2 b] eqn:Sv.
    destruct b; (eexists; eexists; exists true, f'; split; [exact D|]; cbv zeta; rewrite Kn, NI; cbn [negb]; rewrite Sv; split; reflexivity).
  - intros o c' S. destruct (C33_effect _ _ _ _ _ _ _ _ S) as [[F _]|(_ & N & _)]; auto. exfalso.
    apply (N g others). repeat split; auto.
Qed.
Print Assumptions C33_works.

(** A case: me invites bob to "club", bob joins and is the second member. *)
Definition me0 : bytes := repeat 1 32.
Definition bob : bytes := repeat 2 32.
Definition carol : bytes := repeat 3 32.
Definition dave : bytes := repeat 4 32.
Definition self0 : self := mkSelf me0 (bs "ann") (fun r => r) (bs "<") (bs ">").
Definition club : bytes := bs "club".
Definition gi0 (t : N) : GroupInvite := mkGroupInvite club [bs "ann"] t (bs "come join me!") 5.

Lemma gi0_ok t : t < 1000000 -> invite_ok (gi0 t).
Proof.
  intros T. assert (B : forall l, forallb (fun x => x <? 256) l = true -> Forall is_byte l).
  { intros l H. apply Forall_forall. intros x I. rewrite forallb_forall in H. apply H in I. unfold is_byte. lia. }
  unfold invite_ok, GroupInvite_ok, gi0. cbn [GroupInvite_Name GroupInvite_Members GroupInvite_Token GroupInvite_Description GroupInvite_Expires].
  split; [split; [split; [vm_compute; discriminate|now left]|split; [split; [vm_compute; discriminate|split; [now left|]]|split; [unfold u64_ok; lia|split; [split; [vm_compute; discriminate|now left]|unfold i64_ok; lia]]]]|].
  - constructor; [split; [vm_compute; discriminate|now left]|constructor].
  - split; [apply B; reflexivity|]. split; [constructor; [apply B; reflexivity|constructor]|apply B; reflexivity].
Qed.

Example C33_case : exists h c o c',
  grun self0 new_client h c /\ events_ok h /\
  gstep self0 c (RJoin bob (mkGroupJoin club 7 []) (fun _ => true) Written) o c' /\ o_result o = Fine /\
  option_map GroupList_Members (mget (c_groups c') club) = Some [me0; bob].
Proof.
  set (c1 := mkGclient [(club, mkGroupList club 0 3 [me0])] [(club, enc GroupList_codec (mkGroupList club 0 3 [me0]))] None None []).
  assert (S1 : gstep self0 new_client (CNew club 3 false Written) fine c1) by reflexivity.
  assert (I0 : identity bob) by (split; [reflexivity|repeat constructor]).
  destruct (saved_total (render [([], [])]) (put_record ini_fresh (gi0 7) bob)) as [f' F].
  set (c2 := set_invites c1 (Some f')).
  assert (S2 : gstep self0 c1 (CInvite club bob [bs "ann"] (Some 7) 5) (mkOut Fine [(bob, GInvite (gi0 7))] None) c2).
  { cbn [gstep]. unfold gc_invite. change (mget (c_groups c1) club) with (Some (mkGroupList club 0 3 [me0])).
    change (admin (mkGroupList club 0 3 [me0])) with (Some me0). cbv iota beta.
    change (negb (eqb me0 (i_id self0))) with false. change (mem bob (GroupList_Members (mkGroupList club 0 3 [me0]))) with false. cbv iota.
    exists (Some (gi0 7)), (Some f'). split; [|split; reflexivity].
    unfold invite_db_add. cbn [c_invites c1 db_open]. split; [reflexivity|]. exists f'. split; [exact F|reflexivity]. }
  set (h := [(CInvite club bob [bs "ann"] (Some 7) 5, mkOut Fine [(bob, GInvite (gi0 7))] None); (CNew club 3 false Written, fine)]).
  assert (R : grun self0 new_client h c2) by (repeat (eapply GRun_cons; [|eassumption]); apply GRun_nil).
  assert (OK : events_ok h).
  { constructor; [|constructor; [exact I|constructor]]. cbn [fst event_ok]. split; [reflexivity|]. split; [discriminate|].
    split; [exact I0|]. exact gi0_ok. }
  destruct (C33_works self0 [] (CInvite club bob [bs "ann"] (Some 7) 5, mkOut Fine [(bob, GInvite (gi0 7))] None)
    [(CNew club 3 false Written, fine)] c2 bob (mkGroupJoin club 7 []) (fun _ => true) (mkGroupList club 0 3 [me0]) [] R OK) as [(o & c' & S) Fi]; auto.
  - do 4 eexists. split; [reflexivity|]. split; reflexivity.
  - exists h, c2, o, c'. split; auto. split; auto. split; auto. split; [eapply Fi; eauto|].
    destruct (C33_effect _ _ _ _ _ _ _ _ S) as [(_ & g & others & (G & M & _) & E & _)|(E & _)].
    + cbn [GroupJoin_Name] in E, G. rewrite E. cbn [option_map GroupList_Members].
      assert (X : g = mkGroupList club 0 3 [me0]) by (change (Some (mkGroupList club 0 3 [me0]) = Some g) in G; congruence).
      rewrite X. reflexivity.
    + rewrite (Fi _ _ S) in E. discriminate.
Qed.

(** Finding: the invitation is used up even if the request then fails, for example
    because the disk is full or the sender is not in the address book. *)
Theorem C33_lost_refuted : forall s h c from gj known w o c' g others,
  grun s new_client h c -> events_ok h -> identity from ->
  gstep s c (RJoin from gj known w) o c' ->
  mget (c_groups c) (GroupJoin_Name gj) = Some g -> GroupList_Members g = i_id s :: others ->
  token_for (c_invites c) (GroupJoin_Name gj) from = Some (GroupJoin_Token gj) ->
  token_for (c_invites c') (GroupJoin_Name gj) from = None /\
  (known from = false \/ w <> Written -> o_result o = Error).
Proof.
  intros s h c from gj known w o c' g others R OK Id S G M T.
  destruct (ledger _ _ _ R OK) as (Sd & _). split.
  - cbn [gstep] in S. unfold handle_join in S. rewrite G, M in S. rewrite eqb_refl in S. cbn [negb] in S.
    destruct S as (ok & f' & D & S). pose proof (del_invite_ok _ _ _ _ _ D) as [D1 _]. rewrite (proj2 D1 T) in D, S. cbn [negb] in S.
    destruct (del_invite_spec _ _ _ _ Sd D) as [_ E].
    assert (CI : c_invites c' = f').
    { destruct (known from); cbn [negb] in S; [|destruct S as [_ ->]; reflexivity].
      destruct (mem from others); [destruct S as [_ ->]; reflexivity|].
      destruct (save_group _ _ _) as [c2 b] eqn:Sv. apply save_frame in Sv. destruct Sv as (_ & X & _). cbn in X.
      destruct b; destruct S as [_ ->]; auto. }
    rewrite CI. unfold token_for. rewrite E, !eqb_refl. reflexivity.
  - intros X. destruct (C33_effect _ _ _ _ _ _ _ _ S) as [(_ & g0 & o0 & (_ & _ & _ & K & _ & _ & _ & W) & _)|(E & _)]; auto.
    destruct X; congruence.
Qed.
Print Assumptions C33_lost_refuted.

(** * C34: changing a group *)

(** [who] is the administrator of [n] as stored by the client. *)
Definition administers (c : gclient) (n who : bytes) : Prop :=
  exists g others, mget (c_groups c) n = Some g /\ GroupList_Members g = who :: others.

Lemma admin_spec c n g a : mget (c_groups c) n = Some g -> admin g = Some a -> administers c n a.
Proof. intros G A. unfold admin in A. destruct (GroupList_Members g) as [|x r] eqn:M; [discriminate|]. injection A as ->. exists g, r. auto. Qed.

(** What may change the group [n]. *)
Definition authorised (s : self) (c : gclient) (n : bytes) (e : event) : Prop :=
  match e with
  (* own commands *)
  | CNew m _ _ _ | CJoin m _ _ => m = n /\ mget (c_groups c) n = None
  | CForce m _ => m = n
  | CKill m _ _ => m = n /\ forall who, administers c n who -> who = i_id s
  | CAcked i _ => exists k, nth_error (c_kicks c) i = Some k /\ q_name k = n
  | Restart => True
  (* requests of others to the administrator *)
  | RJoin from gj _ _ => GroupJoin_Name gj = n /\ administers c n (i_id s) /\ token_for (c_invites c) n from = Some (GroupJoin_Token gj)
  | RPart from gp _ _ _ => GroupPart_Name gp = n /\ administers c n (i_id s) /\
      exists g, mget (c_groups c) n = Some g /\ In from (GroupList_Members g)
  (* messages of the administrator *)
  | RKick from gk _ _ => GroupList_Name (GroupKick_NewGroupList gk) = n /\ administers c n from
  | RKill from gk _ => GroupKill_Name gk = n /\ administers c n from
  | RList from gl _ => GroupList_Name gl = n /\ administers c n from
  | RUpdate from gu _ => GroupList_Name (GroupUpdate_NewGroupList gu) = n /\ administers c n from
  | CInvite _ _ _ _ _ | CKick _ _ _ | CPart _ | CMessage _ _ _ | RInvite _ _ _ | RMessage _ _ => False
  end.

Theorem C34_who : forall s c e o c' n, gstep s c e o c' ->
  mget (c_groups c') n <> mget (c_groups c) n -> authorised s c n e.
Proof.
  intros s c e o c' n H NE. destruct (step_change _ _ _ _ _ n H) as [E|C]; [congruence|].
  inversion C; subst; cbn [authorised]; eauto using admin_spec.
  - split; auto. intros who (g0 & others & G & M). assert (g0 = g) by congruence. subst g0.
    unfold admin in *. rewrite M in *. intuition congruence.
  - split; auto. split; auto. eexists; eexists; eauto.
  - split; auto. split; [eexists; eexists; eauto|]. exists g. split; auto.
    match goal with M : GroupList_Members g = _ |- _ => rewrite M end. now right.
Qed.
Print Assumptions C34_who.

(** A kick, kill or list from anybody but the administrator does nothing at all. *)
Theorem C34_stranger : forall s c e o c' from n, gstep s c e o c' ->
  match e with
  | RKick f gk _ _ => f = from /\ GroupList_Name (GroupKick_NewGroupList gk) = n
  | RKill f gk _ => f = from /\ GroupKill_Name gk = n
  | RList f gl _ => f = from /\ GroupList_Name gl = n
  | RUpdate f gu _ => f = from /\ GroupList_Name (GroupUpdate_NewGroupList gu) = n
  | _ => False
  end -> ~ administers c n from -> c' = c /\ o_sent o = [].
Proof.
  intros s c e o c' from n H E NA.
  assert (U : forall gl w, GroupList_Name gl = n -> update_list c from gl w = (c, false)).
  { intros gl w <-. unfold update_list. destruct (mget (c_groups c) (GroupList_Name gl)) as [g|] eqn:G; auto.
    destruct (admin g) as [a|] eqn:A; auto. destruct (eqb_spec a from) as [Q|Q]; auto. exfalso. apply NA. eapply admin_spec; eauto. congruence. }
  destruct e; try contradiction; destruct E as [<- E]; cbn [gstep] in H.
  - unfold handle_kick in H. rewrite E in H. destruct (mget (c_groups c) n) as [g|] eqn:G; [|crush; auto].
    destruct (admin g) as [a|] eqn:A; [|crush; auto]. destruct (eqb_spec a from0) as [Q|Q]; cbn [negb] in H; [|crush; auto].
    exfalso. apply NA. eapply admin_spec; eauto. congruence.
  - unfold handle_kill in H. rewrite E in H. destruct (mget (c_groups c) n) as [g|] eqn:G; [|crush; auto].
    destruct (admin g) as [a|] eqn:A; [|crush; auto]. destruct (eqb_spec a from0) as [Q|Q]; cbn [negb] in H; [|crush; auto].
    exfalso. apply NA. eapply admin_spec; eauto. congruence.
  - unfold handle_list in H. rewrite (U _ _ E) in H. crush. auto.
  - unfold handle_list in H. rewrite (U _ _ E) in H. crush. auto.
Qed.
Print Assumptions C34_stranger.

(** The administrator's own commands are refused to everybody else. *)
Theorem C34_commands : forall s c e o c' n, gstep s c e o c' ->
  match e with CKick m _ _ | CInvite m _ _ _ _ => m = n | CKill m _ _ => m = n /\ exists who, administers c n who | _ => False end ->
  ~ administers c n (i_id s) -> c' = c /\ o = error.
Proof.
  intros s c e o c' n H E NA. destruct e; try contradiction; cbn [gstep] in H.
  - subst n0. unfold gc_invite in H. destruct (mget (c_groups c) n) as [g|] eqn:G; [|tauto]. destruct (admin g) as [a|] eqn:A; [|tauto].
    destruct (eqb_spec a (i_id s)) as [Q|Q]; cbn [negb] in H; [|tauto]. exfalso. apply NA. eapply admin_spec; eauto. congruence.
  - subst n0. unfold gc_kick in H. destruct (mget (c_groups c) n) as [g|] eqn:G; [|crush; auto].
    destruct (GroupList_Members g) as [|a r] eqn:M; [crush; auto|].
    destruct (eqb_spec a (i_id s)) as [Q|Q]; cbn [negb] in H; [|crush; auto]. exfalso. apply NA. exists g, r. split; auto. congruence.
  - destruct E as [-> (who & g0 & r0 & G0 & M0)]. unfold gc_kill in H. destruct (negb online); [crush; auto|]. rewrite G0, M0 in H.
    destruct (eqb_spec who (i_id s)) as [Q|Q]; cbn [negb] in H; [|crush; auto]. exfalso. apply NA. exists g0, r0. split; auto. congruence.
Qed.
Print Assumptions C34_commands.

Lemma without_split x l1 l2 : ~ In x l1 -> without x (l1 ++ x :: l2) = l1 ++ l2.
Proof.
  induction l1 as [|y r IH]; cbn [app without]; intros N; [now rewrite eqb_refl|].
  destruct (eqb_spec y x) as [Q|Q]; [exfalso; apply N; now left|]. rewrite IH; auto. intros I. apply N. now right.
Qed.

(** A part request takes its sender out and leaves the others in their order; only
    the administrator heeds it, and tells everybody. *)
Theorem C34_part : forall s c from gp now known w o c',
  gstep s c (RPart from gp now known w) o c' ->
  let n := GroupPart_Name gp in
  (forall g l1 l2, mget (c_groups c) n = Some g -> GroupList_Members g = i_id s :: l1 ++ from :: l2 -> ~ In from l1 ->
     let g' := mkGroupList (GroupList_Name g) ((GroupList_Generation g + 1) mod 2 ^ 64) now (i_id s :: l1 ++ l2) in
     mget (c_groups c') n = Some g' /\ (forall m, m <> n -> mget (c_groups c') m = mget (c_groups c) m) /\
     o_sent o = map (fun m => (m, GKick (mkGroupKick from (GroupPart_Reason gp) true g'))) (l1 ++ from :: l2)) /\
  ((forall g others, mget (c_groups c) n = Some g -> GroupList_Members g = i_id s :: others -> ~ In from others) ->
     c' = c /\ o = error).
Proof.
  intros s c from gp now known w o c' H n. cbn [gstep] in H. unfold handle_part in H. fold n in H. split.
  - intros g l1 l2 G M NI. rewrite G, M in H. rewrite eqb_refl in H. cbn [negb] in H.
    assert (Me : mem from (l1 ++ from :: l2) = true) by (apply mem_In, in_or_app; right; now left). rewrite Me in H. cbn [negb] in H.
    rewrite without_split in H by auto. destruct (save_group _ _ _) as [c2 b] eqn:S. apply save_frame in S. destruct S as (E & _).
    cbn [set_groups c_groups] in E. apply pair_equal_spec in H. destruct H as [-> ->].
    split; [rewrite E; apply mget_mset_eq|]. split; [intros m Hm; rewrite E; now apply mget_mset_ne|reflexivity].
  - intros NO. destruct (mget (c_groups c) n) as [g|] eqn:G; [|crush; auto].
    destruct (GroupList_Members g) as [|a others] eqn:M; [crush; auto|].
    destruct (eqb_spec a (i_id s)) as [Q|Q]; cbn [negb] in H; [|crush; auto]. subst a.
    assert (NI : mem from others = false) by (apply mem_false; eapply NO; eauto). rewrite NI in H. cbn [negb] in H. crush; auto.
Qed.
Print Assumptions C34_part.

(** What the administrator says is taken over word by word. *)
Theorem C34_obeyed : forall s c from n, administers c n from ->
  (forall gk w rm o c', GroupList_Name (GroupKick_NewGroupList gk) = n -> gstep s c (RKick from gk w rm) o c' ->
     (GroupKick_Member gk <> i_id s -> mget (c_groups c') n = Some (GroupKick_NewGroupList gk)) /\
     (GroupKick_Member gk = i_id s -> valid_name n = true -> mget (c_groups c') n = None)) /\
  (forall gk rm o c', GroupKill_Name gk = n -> gstep s c (RKill from gk rm) o c' -> valid_name n = true -> mget (c_groups c') n = None) /\
  (forall gl w o c', GroupList_Name gl = n -> gstep s c (RList from gl w) o c' -> mget (c_groups c') n = Some gl) /\
  (forall gu w o c', GroupList_Name (GroupUpdate_NewGroupList gu) = n -> gstep s c (RUpdate from gu w) o c' ->
     mget (c_groups c') n = Some (GroupUpdate_NewGroupList gu)).
Proof.
  intros s c from n (g & others & G & M).
  assert (A : admin g = Some from) by (unfold admin; now rewrite M).
  assert (U : forall gl w c' b, GroupList_Name gl = n -> update_list c from gl w = (c', b) -> mget (c_groups c') n = Some gl).
  { intros gl w c' b E. unfold update_list. rewrite E, G, A, eqb_refl. intros S. apply save_frame in S. destruct S as (X & _).
    rewrite X. cbn [set_groups c_groups]. apply mget_mset_eq. }
  assert (D : forall rm c' b, valid_name n = true -> delete_group c n rm = (c', b) -> mget (c_groups c') n = None).
  { intros rm c' b V S. apply delete_frame in S. destruct S as (_ & _ & _ & _ & ->). rewrite V, mget_mdel, eqb_refl. reflexivity. }
  split; [|split; [|split]].
  - intros gk w rm o c' E H. cbn [gstep] in H. unfold handle_kick in H. rewrite E, G, A, eqb_refl in H. cbn [negb] in H.
    destruct (eqb_spec (GroupKick_Member gk) (i_id s)) as [Q|Q].
    + destruct (delete_group _ _ _) as [c1 b] eqn:S. apply pair_equal_spec in H. destruct H as [_ ->]. split; [congruence|]. eauto.
    + destruct (update_list _ _ _ _) as [c1 b] eqn:S. apply pair_equal_spec in H. destruct H as [_ ->]. split; [eauto|congruence].
  - intros gk rm o c' E H V. cbn [gstep] in H. unfold handle_kill in H. rewrite E, G, A, eqb_refl in H. cbn [negb] in H.
    destruct (delete_group _ _ _) as [c1 b] eqn:S. apply pair_equal_spec in H. destruct H as [_ ->]. eauto.
  - intros gl w o c' E H. cbn [gstep] in H. unfold handle_list in H. destruct (update_list _ _ _ _) as [c1 b] eqn:S.
    apply pair_equal_spec in H. destruct H as [_ ->]. cbn [fst]. eauto.
  - intros gu w o c' E H. cbn [gstep] in H. unfold handle_list in H. destruct (update_list _ _ _ _) as [c1 b] eqn:S.
    apply pair_equal_spec in H. destruct H as [_ ->]. cbn [fst]. eauto.
Qed.
Print Assumptions C34_obeyed.

(** Finding: neither the generation nor the new first member is checked.  The
    administrator of any group can set it back to generation 0, hand it to anybody,
    or leave it without members. *)
Theorem C34_list_unchecked_refuted : forall s c from n members,
  administers c n from -> exists gl o c', gstep s c (RList from gl Written) o c' /\
    GroupList_Generation gl = 0 /\ mget (c_groups c') n = Some gl /\ GroupList_Members gl = members.
Proof.
  intros s c from n members A. exists (mkGroupList n 0 0 members).
  destruct (handle_list Written c from (mkGroupList n 0 0 members)) as [o c'] eqn:H. exists o, c'.
  assert (S : gstep s c (RList from (mkGroupList n 0 0 members) Written) o c') by (cbn [gstep]; auto). split; auto. split; auto.
  split; auto. destruct (C34_obeyed s c from n A) as (_ & _ & X & _). now apply (X _ Written o).
Qed.
Print Assumptions C34_list_unchecked_refuted.

Definition trio (g : N) (l : list bytes) : gclient := mkGclient [(club, mkGroupList club g 3 l)] [] None None [].
Example C34_case :
  administers (trio 5 [bob; carol; me0]) club bob /\ ~ administers (trio 5 [bob; carol; me0]) club carol /\
  mget (c_groups (snd (handle_part me0 9 (fun _ => true) Written (trio 5 [me0; bob; carol; dave]) carol (mkGroupPart club [])))) club
    = Some (mkGroupList club 6 9 [me0; bob; dave]) /\
  snd (handle_kill true (trio 5 [bob; carol; me0]) carol (mkGroupKill club [])) = trio 5 [bob; carol; me0] /\
  mget (c_groups (snd (handle_list Written (trio 5 [bob; carol; me0]) bob (mkGroupList club 1 3 [])))) club = Some (mkGroupList club 1 3 []).
Proof.
  split; [eexists; eexists; split; reflexivity|]. split; [|split; [vm_compute; reflexivity|split; vm_compute; reflexivity]].
  intros (g & others & G & M). change (Some (mkGroupList club 5 3 [bob; carol; me0]) = Some g) in G.
  assert (g = mkGroupList club 5 3 [bob; carol; me0]) by congruence. subst g. discriminate.
Qed.

(** * C35: messages *)

Lemma skip_skip {A} x y (l : list A) : skipn x (skipn y l) = skipn (x + y) l.
Proof. revert l. induction y as [|y IH]; intros l; [now rewrite Nat.add_0_r|]. rewrite Nat.add_succ_r. destruct l; [now rewrite !skipn_nil|]. apply IH. Qed.
Lemma only_colours : forall upper on off nick mode msg t, highlight upper on off nick mode msg = Some t ->
  t = msg \/ exists a m b, msg = a ++ m ++ b /\ length m = length nick /\ t = a ++ on ++ m ++ off ++ b.
Proof.
  intros upper on off nick mode msg t. unfold highlight. destruct (index _ _) as [x|] eqn:I; [|intros E; injection E as <-; auto].
  destruct (mode =? 0); [|intros E; injection E as <-; auto]. destruct (Nat.leb_spec (x + length nick) (length msg)) as [L|L]; [|discriminate].
  intros E. injection E as <-. right. exists (firstn x msg), (firstn (length nick) (skipn x msg)), (skipn (x + length nick) msg).
  split; [|split; [rewrite firstn_length, skipn_length; lia|reflexivity]].
  rewrite Nat.add_comm, <- skip_skip, firstn_skipn, firstn_skipn. reflexivity.
Qed.

(** A group message changes nothing, is shown only if its sender is a member of the
    stored group of that name, and depends on that group alone; what is shown is the
    message, but for colour around one piece of it. *)
Theorem C35_members_only : forall s c from gm o c', gstep s c (RMessage from gm) o c' ->
  c' = c /\ o_sent o = [] /\
  (o_shown o <> None -> exists g, mget (c_groups c) (GroupMessage_Name gm) = Some g /\ In from (GroupList_Members g)) /\
  (forall g, mget (c_groups c) (GroupMessage_Name gm) = Some g -> In from (GroupList_Members g) ->
     o_result o <> Crashed -> o_result o = Fine /\ o_shown o <> None) /\
  (forall c2 o2 c2', mget (c_groups c2) (GroupMessage_Name gm) = mget (c_groups c) (GroupMessage_Name gm) ->
     gstep s c2 (RMessage from gm) o2 c2' -> o2 = o) /\
  (forall t, o_shown o = Some t -> t = GroupMessage_Message gm \/
     exists a m b, GroupMessage_Message gm = a ++ m ++ b /\ t = a ++ i_on s ++ m ++ i_off s ++ b).
Proof.
  intros s c from gm o c' H. rewrite <- !and_assoc. split; [rewrite !and_assoc|].
  2: { cbn [gstep] in H. unfold handle_message in H. intros t T. destruct (mget (c_groups c) (GroupMessage_Name gm)) as [g|];
       [|apply pair_equal_spec in H as [-> _]; discriminate].
       destruct (mem from _); [|apply pair_equal_spec in H as [-> _]; discriminate].
       destruct (highlight _ _ _ _ _ _) as [x|] eqn:Hi; apply pair_equal_spec in H as [-> _]; [|discriminate].
       injection T as <-. apply only_colours in Hi as [->|(p & q & r & E & _ & ->)]; [now left|right; eauto]. }
  cbn [gstep] in *. unfold handle_message in *.
  destruct (mget (c_groups c) (GroupMessage_Name gm)) as [g|] eqn:G.
  - destruct (mem from (GroupList_Members g)) eqn:Me.
    + apply mem_In in Me. destruct (highlight _ _ _ _ _ _) as [t|] eqn:Hi; apply pair_equal_spec in H; destruct H as [-> ->]; cbn [fine error o_sent o_shown o_result];
        (split; [reflexivity|split; [reflexivity|split; [eauto|split]]]).
      * intros _ _ _ _. split; [reflexivity|discriminate].
      * intros c2 o2 c2' E S. rewrite E in S. rewrite (proj2 (mem_In _ _) Me) in S. apply pair_equal_spec in S. apply S.
      * congruence.
      * intros c2 o2 c2' E S. rewrite E in S. rewrite (proj2 (mem_In _ _) Me) in S. apply pair_equal_spec in S. apply S.
    + apply pair_equal_spec in H. destruct H as [-> ->]. cbn [fine error o_sent o_shown o_result]. split; auto. split; auto. split; [congruence|]. split.
      * intros g0 E I. exfalso. assert (g0 = g) by congruence. subst. apply mem_In in I. congruence.
      * intros c2 o2 c2' E S. rewrite E, Me in S. apply pair_equal_spec in S. apply S.
  - apply pair_equal_spec in H. destruct H as [-> ->]. cbn [fine error o_sent o_shown o_result]. split; auto. split; auto. split; [congruence|]. split; [congruence|].
    intros c2 o2 c2' E S. rewrite E in S. apply pair_equal_spec in S. apply S.
Qed.
Print Assumptions C35_members_only.

(** A message goes to all members but the sender, to each of them once, as it was
    typed, under the name and the generation of the group; and if it cannot go to
    the group nothing is sent. *)
Theorem C35_sent : forall s c n msg mode o c', gstep s c (CMessage n msg mode) o c' ->
  c' = c /\
  (mget (c_groups c) n = None -> o_sent o = []) /\
  (forall g, mget (c_groups c) n = Some g ->
    (forall who p, In (who, p) (o_sent o) <->
       In who (GroupList_Members g) /\ who <> i_id s /\ p = GMessage (mkGroupMessage n (GroupList_Generation g) msg mode)) /\
    (NoDup (GroupList_Members g) -> NoDup (o_sent o))).
Proof.
  intros s c n msg mode o c' [-> ->]. split; [reflexivity|]. unfold gc_message. split; [intros ->; reflexivity|].
  intros g G. rewrite G. cbn [o_sent]. split.
  - intros who p. split.
    + intros I. apply in_map_iff in I. destruct I as (m & E & I). injection E as <- <-. apply filter_In in I.
      destruct I as [I N]. split; auto. split; [|reflexivity]. destruct (eqb_spec m (i_id s)); [discriminate|auto].
    + intros (I & N & ->). apply in_map_iff. exists who. split; [reflexivity|]. apply filter_In. split; auto.
      destruct (eqb_spec who (i_id s)); [congruence|auto].
  - intros ND. apply FinFun.Injective_map_NoDup; [intros x y [= E]; auto|]. now apply NoDup_filter.
Qed.
Print Assumptions C35_sent.

Example C35_case :
  o_shown (fst (handle_message (fun r => r) [] [] (bs "ann") (trio 5 [bob; me0]) bob (mkGroupMessage club 5 (bs "hi") 0))) = Some (bs "hi") /\
  o_shown (fst (handle_message (fun r => r) [] [] (bs "ann") (trio 5 [bob; me0]) carol (mkGroupMessage club 5 (bs "hi") 0))) = None.
Proof. split; vm_compute; reflexivity. Qed.

(** * C36: kicking *)

(** How often the [i]-th kick has been acknowledged, and no restart. *)
Fixpoint acks (i : nat) (h : list (event * out)) : nat :=
  match h with
  | [] => 0
  | (CAcked j _, _) :: r => if Nat.eqb i j then S (acks i r) else acks i r
  | _ :: r => acks i r
  end.
Definition no_restart (h : list (event * out)) : Prop := forall o, ~ In (Restart, o) h.

Lemma put_kick_nth i k l j : nth_error (put_kick i k l) j =
  if Nat.eqb i j then match nth_error l j with Some _ => Some k | None => None end else nth_error l j.
Proof.
  revert i j. induction l as [|y r IH]; intros i j; cbn [put_kick].
  - destruct i, j; cbn; try destruct (Nat.eqb _ _); reflexivity.
  - destruct i, j; cbn; auto.
Qed.

(** An event keeps the kicks at their places and counts the acknowledgement. *)
Lemma step_kick s c e o c' i k : gstep s c e o c' -> e <> Restart -> nth_error (c_kicks c) i = Some k ->
  nth_error (c_kicks c') i = Some (mkKick (q_name k) (q_new k) (acks i [(e, o)] + q_got k) (q_want k)).
Proof.
  intros H NR K. assert (Id : k = mkKick (q_name k) (q_new k) (0 + q_got k) (q_want k)) by (destruct k; reflexivity).
  pose proof (step_kicks _ _ _ _ _ H) as Q.
  destruct e; cbn [acks]; try (rewrite Q, K, <- Id; reflexivity).
  - rewrite <- Id. destruct Q as [->|(g & others & _ & _ & _ & ->)]; auto.
    rewrite nth_error_app1; auto. apply nth_error_Some. congruence.
  - destruct (nth_error (c_kicks c) i0) as [q|] eqn:Q0.
    + rewrite Q, put_kick_nth, K, (Nat.eqb_sym i i0). destruct (Nat.eqb_spec i0 i) as [E|E]; [|now rewrite <- Id].
      subst i0. assert (q = k) by congruence. now subst q.
    + subst c'. destruct (Nat.eqb_spec i i0); [congruence|]. now rewrite <- Id.
  - congruence.
Qed.

Lemma acks_cons i e o h : acks i ((e, o) :: h) = (acks i [(e, o)] + acks i h)%nat.
Proof. destruct e; cbn [acks]; auto. destruct (Nat.eqb i i0); reflexivity. Qed.

Lemma run_kick s c0 h c i k : grun s c0 h c -> no_restart h -> nth_error (c_kicks c0) i = Some k ->
  nth_error (c_kicks c) i = Some (mkKick (q_name k) (q_new k) (acks i h + q_got k) (q_want k)).
Proof.
  intros R NR K. induction R as [|h c e o c' R IH S]; [destruct k; exact K|].
  assert (NR' : no_restart h) by (intros o' I; apply (NR o'); now right).
  assert (NE : e <> Restart) by (intros ->; apply (NR o); now left).
  rewrite (step_kick _ _ _ _ _ _ _ S NE (IH NR')). cbn [q_name q_new q_got q_want]. rewrite (acks_cons i e o h). do 2 f_equal. lia.
Qed.

(** The list without one of its members, told to everybody but the administrator. *)
Definition kicked_list (g : GroupList) (who : bytes) (now : Z) : GroupList :=
  mkGroupList (GroupList_Name g) ((GroupList_Generation g + 1) mod 2 ^ 64) now
    (filter (fun m => negb (eqb m who)) (GroupList_Members g)).

(** The kick command sends the new list to every member, the kicked one included,
    and changes no group. *)
Theorem C36_command : forall s c n who now o c' g others,
  mget (c_groups c) n = Some g -> GroupList_Members g = i_id s :: others -> who <> i_id s ->
  gstep s c (CKick n who now) o c' ->
  o_result o = Fine /\ c_groups c' = c_groups c /\
  nth_error (c_kicks c') (length (c_kicks c)) = Some (mkKick n (kicked_list g who now) 0 (length others)) /\
  map fst (o_sent o) = others /\
  (forall m p, In (m, p) (o_sent o) -> exists gk, p = GKick gk /\ GroupKick_Member gk = who /\ GroupKick_NewGroupList gk = kicked_list g who now).
Proof.
  intros s c n who now o c' g others G M NW H. cbn [gstep] in H. unfold gc_kick in H. rewrite G, M, eqb_refl in H. cbn [negb] in H.
  destruct (eqb_spec (i_id s) who) as [Q|Q]; [congruence|]. rewrite <- M in H. apply pair_equal_spec in H. destruct H as [-> ->].
  cbn [o_result o_sent set_kicks c_groups c_kicks]. split; auto. split; auto. split; [|split].
  - rewrite nth_error_app2, Nat.sub_diag by auto. reflexivity.
  - rewrite map_map. apply map_id.
  - intros m p I. apply in_map_iff in I. destruct I as (x & E & _). injection E as <- <-. eexists; split; [reflexivity|]. split; reflexivity.
Qed.
Print Assumptions C36_command.

(** The group of the administrator changes with the last acknowledgement, to the
    list of the command; an earlier acknowledgement changes no group. *)
Theorem C36_kick : forall s c0 n who now o0 c1 g others h c w o c',
  mget (c_groups c0) n = Some g -> GroupList_Members g = i_id s :: others -> who <> i_id s ->
  let i := length (c_kicks c0) in
  gstep s c0 (CKick n who now) o0 c1 -> grun s c1 h c -> no_restart h -> gstep s c (CAcked i w) o c' ->
  (S (acks i h) = length others -> mget (c_groups c) n <> None -> mget (c_groups c') n = Some (kicked_list g who now)) /\
  (S (acks i h) <> length others -> c_groups c' = c_groups c).
Proof.
  intros s c0 n who now o0 c1 g others h c w o c' G M NW i S0 R NR S1.
  destruct (C36_command _ _ _ _ _ _ _ _ _ G M NW S0) as (_ & _ & K & _). fold i in K.
  pose proof (run_kick _ _ _ _ _ _ R NR K) as K'. cbn [q_name q_new q_got q_want] in K'. rewrite Nat.add_0_r in K'.
  destruct S1 as [_ ->]. unfold kick_acked. rewrite K'. cbn [q_name q_new q_got q_want set_kicks c_groups]. split.
  - intros E P. rewrite E, Nat.eqb_refl. cbn [negb]. unfold mhas. destruct (mget (c_groups c) n) eqn:Gn; [|congruence].
    destruct (save_group _ _ _) as [c2 b] eqn:S. apply save_frame in S. destruct S as (X & _). cbn [fst]. rewrite X. cbn [set_groups c_groups].
    apply mget_mset_eq.
  - intros NE. destruct (Nat.eqb_spec (S (acks i h)) (length others)) as [E|E]; [contradiction|]. reflexivity.
Qed.
Print Assumptions C36_kick.

(** Two kicks, the second given after the first one has been acknowledged by all:
    neither is in the group. *)
Theorem C36_sequential : forall s c0 n x y now1 now2 oa ob oc od c1 c2 c3 c4 c5 c6 g others h1 h2 w1 w2,
  mget (c_groups c0) n = Some g -> GroupList_Members g = i_id s :: others -> x <> i_id s -> y <> i_id s ->
  gstep s c0 (CKick n x now1) oa c1 -> grun s c1 h1 c2 -> no_restart h1 ->
  S (acks (length (c_kicks c0)) h1) = length others -> mget (c_groups c2) n <> None ->
  gstep s c2 (CAcked (length (c_kicks c0)) w1) ob c3 ->
  gstep s c3 (CKick n y now2) oc c4 -> grun s c4 h2 c5 -> no_restart h2 ->
  S (S (acks (length (c_kicks c3)) h2)) = length (filter (fun m => negb (eqb m x)) (GroupList_Members g)) -> mget (c_groups c5) n <> None ->
  gstep s c5 (CAcked (length (c_kicks c3)) w2) od c6 ->
  exists g', mget (c_groups c6) n = Some g' /\
    forall z, In z (GroupList_Members g') <-> In z (GroupList_Members g) /\ z <> x /\ z <> y.
Proof.
  intros s c0 n x y now1 now2 oa ob oc od c1 c2 c3 c4 c5 c6 g others h1 h2 w1 w2 G M Nx Ny S0 R1 NR1 W1 P1 S1 S2 R2 NR2 W2 P2 S3.
  destruct (C36_kick _ _ _ _ _ _ _ _ _ _ _ _ _ _ G M Nx S0 R1 NR1 S1) as [A _]. specialize (A W1 P1).
  assert (M' : GroupList_Members (kicked_list g x now1) = i_id s :: filter (fun m => negb (eqb m x)) others).
  { cbn [kicked_list GroupList_Members]. rewrite M. cbn [filter]. destruct (eqb_spec (i_id s) x); [congruence|]. reflexivity. }
  destruct (C36_kick _ _ _ _ _ _ _ _ _ _ _ _ _ _ A M' Ny S2 R2 NR2 S3) as [B _].
  assert (W3 : S (acks (length (c_kicks c3)) h2) = length (filter (fun m => negb (eqb m x)) others)).
  { rewrite M in W2. cbn [filter] in W2. destruct (eqb_spec (i_id s) x); [congruence|]. cbn [negb length] in W2. lia. }
  specialize (B W3 P2). eexists. split; [exact B|]. intros z. unfold kicked_list. cbn [GroupList_Members]. rewrite !filter_In, !Bool.negb_true_iff.
  split.
  - intros [[I X] Y]. split; auto. destruct (eqb_spec z x); [discriminate|]. destruct (eqb_spec z y); [discriminate|]. auto.
  - intros (I & X & Y). split; [split; auto|]; [destruct (eqb_spec z x)|destruct (eqb_spec z y)]; congruence.
Qed.
Print Assumptions C36_sequential.

(** Finding: the new list is the one of the command.  Of two kicks, the second given
    while the group is still the same, the later acknowledged undoes the other one:
    here [x], whose kick may have been completed at any time since. *)
Theorem C36_overlap_refuted : forall s c0 n x y now2 o2 c1 h c o c' g others w,
  mget (c_groups c0) n = Some g -> GroupList_Members g = i_id s :: others -> In x others -> x <> y -> y <> i_id s ->
  (* the kick of x has been commanded before *)
  (exists i k now1, nth_error (c_kicks c0) i = Some k /\ q_new k = kicked_list g x now1) ->
  gstep s c0 (CKick n y now2) o2 c1 -> grun s c1 h c -> no_restart h ->
  S (acks (length (c_kicks c0)) h) = length others -> mget (c_groups c) n <> None ->
  gstep s c (CAcked (length (c_kicks c0)) w) o c' ->
  exists g', mget (c_groups c') n = Some g' /\ In x (GroupList_Members g').
Proof.
  intros s c0 n x y now2 o2 c1 h c o c' g others w G M Ix NE Ny _ S0 R NR W P S1.
  destruct (C36_kick _ _ _ _ _ _ _ _ _ _ _ _ _ _ G M Ny S0 R NR S1) as [A _]. eexists. split; [apply A; auto|].
  cbn [kicked_list GroupList_Members]. apply filter_In. rewrite M. split; [now right|]. destruct (eqb_spec x y); [congruence|reflexivity].
Qed.
Print Assumptions C36_overlap_refuted.

(** Finding: likewise somebody who joins while a kick is under way is dropped. *)
Theorem C36_join_lost_refuted : forall s c0 n y now o0 c1 h c o c' g others w x,
  mget (c_groups c0) n = Some g -> GroupList_Members g = i_id s :: others -> y <> i_id s -> ~ In x (GroupList_Members g) ->
  gstep s c0 (CKick n y now) o0 c1 -> grun s c1 h c -> no_restart h ->
  S (acks (length (c_kicks c0)) h) = length others ->
  (* x is a member now *)
  (exists g1, mget (c_groups c) n = Some g1 /\ In x (GroupList_Members g1)) ->
  gstep s c (CAcked (length (c_kicks c0)) w) o c' ->
  exists g', mget (c_groups c') n = Some g' /\ ~ In x (GroupList_Members g').
Proof.
  intros s c0 n y now o0 c1 h c o c' g others w x G M Ny NI S0 R NR W (g1 & G1 & _) S1.
  destruct (C36_kick _ _ _ _ _ _ _ _ _ _ _ _ _ _ G M Ny S0 R NR S1) as [A _]. eexists. split; [apply A; [auto|congruence]|].
  cbn [kicked_list GroupList_Members]. intros I. apply filter_In in I. tauto.
Qed.
Print Assumptions C36_join_lost_refuted.

(** Finding: a kick under way is forgotten at a restart; without a new kick command
    no acknowledgement changes any group. *)
Theorem C36_restart_refuted : forall s c0 o0 c1 h c i w o c',
  gstep s c0 Restart o0 c1 -> grun s c1 h c -> (forall n who now o1, ~ In (CKick n who now, o1) h) ->
  gstep s c (CAcked i w) o c' -> c' = c.
Proof.
  intros s c0 o0 c1 h c i w o c' [_ E] R NK [_ ->].
  assert (K : c_kicks c = []).
  { assert (K1 : c_kicks c1 = []) by now rewrite E. clear E. induction R as [|h c e o1 c2 R IH S]; auto.
    assert (K : c_kicks c = []) by (apply IH; auto; intros n who now o2 I; apply (NK n who now o2); now right).
    pose proof (step_kicks _ _ _ _ _ S) as Q. destruct e; try congruence.
    - exfalso. apply (NK n who now o1). now left.
    - rewrite K in Q. destruct i0; cbn in Q; congruence. }
  unfold kick_acked. rewrite K. destruct i; reflexivity.
Qed.
Print Assumptions C36_restart_refuted.

(** Bob and Carol are kicked while nobody has answered yet; Dave and both of them
    acknowledge everything; Bob is still a member for the administrator. *)
Example C36_case : exists h c, grun self0 (trio 5 [me0; bob; carol; dave]) h c /\ no_restart h /\
  acks 0 h = 3%nat /\ acks 1 h = 3%nat /\ mget (c_groups c) club = Some (mkGroupList club 6 8 [me0; bob; dave]).
Proof.
  set (c0 := trio 5 [me0; bob; carol; dave]).
  set (c1 := snd (gc_kick me0 7 c0 club bob)). set (c2 := snd (gc_kick me0 8 c1 club carol)).
  pose (d := fun c (i : nat) => kick_acked Written c i).
  exists [(CAcked 1 Written, fine); (CAcked 1 Written, fine); (CAcked 1 Written, fine);
     (CAcked 0 Written, fine); (CAcked 0 Written, fine); (CAcked 0 Written, fine);
     (CKick club carol 8, fst (gc_kick me0 8 c1 club carol)); (CKick club bob 7, fst (gc_kick me0 7 c0 club bob))],
   (d (d (d (d (d (d c2 0%nat) 0%nat) 0%nat) 1%nat) 1%nat) 1%nat). subst d. cbv beta.
  split.
  { do 6 (eapply GRun_cons; [|split; reflexivity]).
    apply (GRun_cons _ _ _ c1); [|symmetry; apply (surjective_pairing (gc_kick me0 8 c1 club carol))].
    apply (GRun_cons _ _ _ c0); [constructor|symmetry; apply (surjective_pairing (gc_kick me0 7 c0 club bob))]. }
  split; [intros o I; cbn [In] in I; intuition discriminate|]. split; [reflexivity|]. split; [reflexivity|]. vm_compute. reflexivity.
Qed.

(** * C43: mentions *)

Lemma index_spec sep s x : index sep s = Some x -> exists a b, s = a ++ sep ++ b /\ length a = x.
Proof.
  revert x. induction s as [|c r IH]; intros x; cbn [index].
  - destruct (IniModel.has_prefix sep []) eqn:P; [|discriminate]. apply IniDiskProofs.has_prefix_spec in P. destruct P as [b ->].
    intros E. injection E as <-. exists [], b. auto.
  - destruct (IniModel.has_prefix sep (c :: r)) eqn:P.
    + apply IniDiskProofs.has_prefix_spec in P. destruct P as [b ->]. intros E. injection E as <-. exists [], b. auto.
    + destruct (index sep r) as [y|] eqn:I; [|discriminate]. cbn. intros E. injection E as <-.
      destruct (IH y eq_refl) as (a & b & -> & <-). exists (c :: a), b. auto.
Qed.


(** What is shown is the message with the two colours put around some part of it. *)
Theorem C43_only_colours : forall upper on off nick mode msg t, highlight upper on off nick mode msg = Some t ->
  t = msg \/ exists a m b, msg = a ++ m ++ b /\ length m = length nick /\ t = a ++ on ++ m ++ off ++ b.
Proof. exact only_colours. Qed.
Print Assumptions C43_only_colours.

(** It cannot crash if upper case makes the nick no shorter and the message no longer. *)
Theorem C43_safe : forall upper on off nick mode msg,
  (length nick <= length (to_upper upper nick))%nat -> (length (to_upper upper msg) <= length msg)%nat ->
  highlight upper on off nick mode msg <> None.
Proof.
  intros upper on off nick mode msg Ln Lg. unfold highlight. destruct (index _ _) as [x|] eqn:I; [|discriminate].
  destruct (mode =? 0); [|discriminate]. destruct (Nat.leb_spec (x + length nick) (length msg)) as [L|L]; [discriminate|].
  apply index_spec in I. destruct I as (a & b & E & La). exfalso. apply (f_equal (@length N)) in E. rewrite !app_length in E. lia.
Qed.
Print Assumptions C43_safe.

(** In plain ASCII the first occurrence of the nick, in whatever case, is coloured. *)
Definition ascii (s : bytes) : Prop := Forall (fun c => c < 128) s.
Definition same_letters (a b : bytes) : Prop := map up_ascii a = map up_ascii b.

Lemma upper_ascii upper s : ascii s -> to_upper upper s = map up_ascii s.
Proof.
  intros A. unfold to_upper. assert (E : forallb (fun c => c <? 128) s = true); [|now rewrite E].
  apply forallb_forall. intros c I. apply N.ltb_lt. unfold ascii in A. rewrite Forall_forall in A. auto.
Qed.

Lemma index_none sep s : index sep s = None -> forall a b, s <> a ++ sep ++ b.
Proof.
  intros I a. revert s I. induction a as [|c r IH]; intros s I b E.
  - cbn [app] in E. assert (P : IniModel.has_prefix sep s = true) by (apply IniDiskProofs.has_prefix_spec; eauto).
    destruct s; cbn [index] in I; rewrite P in I; discriminate.
  - subst s. cbn [app index] in I. destruct (IniModel.has_prefix _ _); [discriminate|]. destruct (index sep (r ++ sep ++ b)) eqn:J; [discriminate|].
    eapply IH; eauto.
Qed.

Lemma index_first sep s x : index sep s = Some x -> forall a b, s = a ++ sep ++ b -> (x <= length a)%nat.
Proof.
  intros I a. revert s x I. induction a as [|c r IH]; intros s x I b E.
  - cbn [app] in E. assert (P : IniModel.has_prefix sep s = true) by (apply IniDiskProofs.has_prefix_spec; eauto).
    destruct s; cbn [index] in I; rewrite P in I; injection I as <-; cbn; lia.
  - subst s. cbn [app index] in I. destruct (IniModel.has_prefix _ _); [injection I as <-; cbn; lia|].
    destruct (index sep (r ++ sep ++ b)) as [y|] eqn:J; [|discriminate]. cbn in I. injection I as <-. cbn [length].
    specialize (IH _ _ J b eq_refl). lia.
Qed.

Theorem C43_ascii : forall upper on off nick msg, ascii nick -> ascii msg ->
  (forall a m b, msg = a ++ m ++ b -> same_letters m nick ->
     (forall a' m' b', msg = a' ++ m' ++ b' -> same_letters m' nick -> (length a <= length a')%nat) ->
     highlight upper on off nick 0 msg = Some (a ++ on ++ m ++ off ++ b)) /\
  ((forall a m b, msg = a ++ m ++ b -> ~ same_letters m nick) -> highlight upper on off nick 0 msg = Some msg) /\
  (forall mode, mode <> 0 -> highlight upper on off nick mode msg = Some msg).
Proof.
  intros upper on off nick msg An Am. unfold highlight. rewrite !upper_ascii by auto. split; [|split].
  - intros a m b E Sm First. unfold same_letters in *.
    assert (Lm : length m = length nick) by (apply (f_equal (@length N)) in Sm; now rewrite !map_length in Sm).
    assert (U : map up_ascii msg = map up_ascii a ++ map up_ascii nick ++ map up_ascii b) by (rewrite E, !map_app, Sm; auto).
    destruct (index (map up_ascii nick) (map up_ascii msg)) as [x|] eqn:I.
    + pose proof (index_first _ _ _ I _ _ U) as L1. rewrite map_length in L1.
      assert (x = length a); [|subst x].
      { apply Nat.le_antisymm; auto. apply index_spec in I. destruct I as (p & q & Em & <-).
        assert (Q : exists a' m' b', msg = a' ++ m' ++ b' /\ map up_ascii a' = p /\ map up_ascii m' = map up_ascii nick).
        { exists (firstn (length p) msg), (firstn (length nick) (skipn (length p) msg)), (skipn (length nick) (skipn (length p) msg)).
          split; [now rewrite !firstn_skipn|]. rewrite <- !firstn_map, <- skipn_map, Em. split.
          - rewrite firstn_app, Nat.sub_diag, firstn_all. apply app_nil_r.
          - rewrite skipn_app, Nat.sub_diag, skipn_all. cbn [app skipn]. rewrite firstn_app, map_length, Nat.sub_diag.
            rewrite <- (map_length up_ascii nick), firstn_all. apply app_nil_r. }
        destruct Q as (a' & m' & b' & E' & Lp & Sp). subst p. rewrite map_length. eapply First; eauto. }
      change (0 =? 0) with true. cbv iota. subst msg. rewrite !app_length, Lm.
      destruct (Nat.leb_spec (length a + length nick) (length a + (length nick + length b))) as [L|L]; [|lia]. f_equal.
      rewrite firstn_app, Nat.sub_diag, firstn_all, app_nil_r. f_equal. f_equal.
      rewrite skipn_app, Nat.sub_diag, skipn_all. cbn [app skipn].
      rewrite firstn_app, <- Lm, Nat.sub_diag, firstn_all, app_nil_r. f_equal. f_equal.
      rewrite Nat.add_comm, <- skip_skip, skipn_app, Nat.sub_diag, skipn_all. cbn [app skipn].
      rewrite skipn_app, Nat.sub_diag, skipn_all. reflexivity.
    + exfalso. eapply index_none; eauto.
  - intros No. destruct (index (map up_ascii nick) (map up_ascii msg)) as [x|] eqn:I; auto. exfalso.
    apply index_spec in I. destruct I as (p & q & Em & _).
    eapply (No (firstn (length p) msg) (firstn (length nick) (skipn (length p) msg)) (skipn (length nick) (skipn (length p) msg)));
      [now rewrite !firstn_skipn|]. unfold same_letters. rewrite <- firstn_map, <- skipn_map, Em.
    rewrite skipn_app, Nat.sub_diag, skipn_all. cbn [app skipn]. rewrite firstn_app, map_length, Nat.sub_diag.
    rewrite <- (map_length up_ascii nick), firstn_all. apply app_nil_r.
  - intros mode NM. destruct (index _ _); auto. destruct (N.eqb_spec mode 0); congruence.
Qed.
Print Assumptions C43_ascii.

(** Finding: the position is one in the upper-cased message.  A byte that is not
    UTF-8 grows to three, so one such byte before the nick crashes every client whose
    nick is ASCII, whatever unicode.ToUpper does elsewhere. *)
Lemma runes_bad nick : ascii nick -> runes (255 :: nick) = rune_error :: nick.
Proof.
  intros A. unfold runes. cbn [length runes_fuel].
  assert (D : decode_rune (255 :: nick) = (rune_error, 1%nat)) by reflexivity. rewrite D. cbn [skipn]. f_equal.
  induction A as [|c r C A IH]; auto. cbn [length runes_fuel]. rewrite decode_ascii by auto. cbn [skipn]. now rewrite IH.
Qed.

Theorem C43_crash_refuted : forall s c from gm nick o c',
  i_nick s = nick -> ascii nick -> nick <> [] -> i_upper s rune_error = rune_error ->
  (exists g, mget (c_groups c) (GroupMessage_Name gm) = Some g /\ In from (GroupList_Members g)) ->
  GroupMessage_Mode gm = 0 -> GroupMessage_Message gm = 255 :: nick ->
  gstep s c (RMessage from gm) o c' -> o_result o = Crashed.
Proof.
  intros s c from gm nick o c' EN A NE EU (g & G & I) Mo Me H. cbn [gstep] in H. unfold handle_message in H.
  rewrite G in H. assert (Mm : mem from (GroupList_Members g) = true) by now apply mem_In. rewrite Mm, Mo, Me, EN in H.
  assert (U : to_upper (i_upper s) (255 :: nick) = [239; 191; 189] ++ map up_ascii nick).
  { unfold to_upper. cbn [forallb]. change (255 <? 128) with false. cbn [andb]. rewrite runes_bad by auto. cbn [map concat].
    change (up_rune (i_upper s) rune_error) with (i_upper s rune_error). rewrite EU. change (encode_rune rune_error) with [239; 191; 189]. f_equal.
    clear - A. induction A as [|c r C A IH]; auto. cbn [map concat]. rewrite IH. unfold up_rune.
    destruct (N.ltb_spec c 128) as [L|L]; [|lia]. unfold encode_rune. assert (X : up_ascii c < 128).
    { unfold up_ascii, in_range. destruct (_ && _); lia. }
    destruct (N.ltb_spec (up_ascii c) 128); [reflexivity|lia]. }
  assert (Hi : highlight (i_upper s) (i_on s) (i_off s) nick 0 (255 :: nick) = None).
  { unfold highlight. rewrite U, (upper_ascii _ nick A).
    assert (X : index (map up_ascii nick) ([239; 191; 189] ++ map up_ascii nick) = Some 3%nat).
    { destruct nick as [|x r]; [congruence|]. inversion A as [|? ? Cx Ar]; subst.
      assert (Ux : up_ascii x < 128) by (unfold up_ascii, in_range; destruct (_ && _); lia).
      assert (P : forall s, IniModel.has_prefix s (s ++ []) = true) by (intros; apply IniDiskProofs.has_prefix_spec; eauto).
      specialize (P (map up_ascii (x :: r))). rewrite app_nil_r in P.
      set (u := map up_ascii (x :: r)) in *. cbn [app index].
      assert (B : forall y l, 128 <= y -> IniModel.has_prefix u (y :: l) = false).
      { intros y l Hy. unfold u. cbn [map IniModel.has_prefix]. destruct (N.eqb_spec (up_ascii x) y); [lia|reflexivity]. }
      rewrite !B by lia. cbn [option_map]. destruct u eqn:Eu; [discriminate|]. cbn [index]. rewrite P. reflexivity. }
    rewrite X. change (0 =? 0) with true. cbv iota. cbn [length].
    destruct (Nat.leb_spec (3 + length nick) (S (length nick))); [lia|reflexivity]. }
  rewrite Hi in H. apply pair_equal_spec in H. destruct H as [-> _]. reflexivity.
Qed.
Print Assumptions C43_crash_refuted.

(** These and the killing of a group without members are the only crashes. *)
Theorem C43_crashes : forall s c e o c', gstep s c e o c' -> o_result o = Crashed ->
  match e with
  | RMessage from gm => GroupMessage_Mode gm = 0 /\ (exists g, mget (c_groups c) (GroupMessage_Name gm) = Some g /\ In from (GroupList_Members g)) /\
      ~ (ascii (i_nick s) /\ ascii (GroupMessage_Message gm))
  | RKill _ gk _ => exists g, mget (c_groups c) (GroupKill_Name gk) = Some g /\ GroupList_Members g = []
  | _ => False
  end.
Proof.
  assert (Dn : forall ok l, o_result (done ok l) <> Crashed) by (intros [] l; discriminate).
  intros s c e o c' H Cr. destruct e; cbn [gstep] in H;
    try (unfold gc_new, gc_invite, gc_join, gc_kick, gc_kill, gc_part, gc_message, handle_join, handle_part, handle_kick, handle_list in H;
         crush; try discriminate; eapply Dn; eassumption).
  - unfold gc_invite in H. destruct (mget (c_groups c) n) as [g|]; [|crush; discriminate].
    destruct (admin g) as [a|]; [|crush; discriminate]. destruct (negb _); [crush; discriminate|]. destruct (mem _ _); [crush; discriminate|].
    destruct H as ([gi|] & f' & _ & _ & ->); discriminate.
  - unfold handle_kill in H. destruct (mget (c_groups c) (GroupKill_Name gk)) as [g|] eqn:G; [|crush; discriminate].
    destruct (admin g) as [a|] eqn:A; [|exists g; split; auto; unfold admin in A; destruct (GroupList_Members g); [auto|discriminate]].
    destruct (eqb a from); cbn [negb] in H; crush; unfold done in *; crush; discriminate.
  - unfold handle_message in H. destruct (mget (c_groups c) (GroupMessage_Name gm)) as [g|] eqn:G; [|crush; discriminate].
    destruct (mem from (GroupList_Members g)) eqn:Me; [|crush; discriminate]. apply mem_In in Me.
    destruct (highlight _ _ _ _ _ _) as [t|] eqn:Hi; [crush; discriminate|]. split; [|split; [eauto|]].
    + unfold highlight in Hi. destruct (index _ _); [|discriminate]. destruct (N.eqb_spec (GroupMessage_Mode gm) 0); [auto|discriminate].
    + intros [A1 A2]. eapply C43_safe; [| |exact Hi]; rewrite upper_ascii, map_length by auto; auto.
Qed.
Print Assumptions C43_crashes.

(** Finding: a group without members, which its administrator can make (C34), crashes
    on a kill message of anybody. *)
Theorem C43_kill_refuted : forall s c from gk rm o c' g,
  mget (c_groups c) (GroupKill_Name gk) = Some g -> GroupList_Members g = [] ->
  gstep s c (RKill from gk rm) o c' -> o_result o = Crashed.
Proof.
  intros s c from gk rm o c' g G M H. cbn [gstep] in H. unfold handle_kill, admin in H. rewrite G, M in H.
  apply pair_equal_spec in H. destruct H as [-> _]. reflexivity.
Qed.
Print Assumptions C43_kill_refuted.

Example C43_case :
  highlight (fun r => r) (bs "<") (bs ">") (bs "Ann") 0 (bs "hi ANN and ann") = Some (bs "hi <ANN> and ann") /\
  highlight (fun r => r) (bs "<") (bs ">") (bs "Ann") 0 (255 :: bs "ann") = None /\
  o_result (fst (handle_kill true (trio 5 []) dave (mkGroupKill club []))) = Crashed.
Proof. repeat split; vm_compute; reflexivity. Qed.
