(** Conversation windows: to whom goes what is typed, and where what arrives is shown. *)
From Verif Require Import Base XdrModel RpcModel AddrModel IniModel HexModel WinModel WinProofs.
From Coq Require Import Lia.
Local Open Scope N_scope.

(** * C69 *)

(** Names that keep windows apart: contacts have different nicks (as shown), without
    white space, and none is called "console" or like a group; group names are not empty
    and have no white space.  Identities are not empty. *)
Record apart (D : PublicIdentity -> Prop) (G : bytes -> Prop) : Prop := {
  a_contacts : forall p q, D p -> D q -> shown_nick p (ident p) = shown_nick q (ident q) -> ident p = ident q;
  a_blank : forall p, D p -> no_blank (shown_nick p (ident p)) = true;
  a_some : forall p, D p -> ident p <> [];
  a_console : forall p, D p -> shown_nick p (ident p) <> bs "console";
  a_groups : forall p, D p -> ~ G (shown_nick p (ident p));
  a_gblank : forall g, G g -> g <> [] /\ no_blank g = true
}.

Lemma shown_some p id : id <> [] -> shown_nick p id <> [].
Proof. unfold shown_nick. destruct (nick p); [|discriminate]. destruct id; [congruence | discriminate]. Qed.

(** What a user types who gives no command but /me. *)
Definition plain (t : bytes) : Prop := has_prefix (bs "/") t = false \/ has_prefix (bs "/me ") t = true.

Definition meant (w : win) (a : act) : Prop :=
  match a with
  | Private to _ _ => w_group w = false /\ to = ident (w_pub w)
  | ToGroup g _ _ _ => w_group w = true /\ g = w_nick w
  | _ => False
  end.

Section Typing.
Variable me : PublicIdentity.
Variable D : PublicIdentity -> Prop.
Variable G : bytes -> Prop.
Hypothesis A : apart D G.

Lemma at_contact : forall ws i w, winv me D G ws -> nth_error ws i = Some w -> i <> O -> w_group w = false ->
  exists p, D p /\ w = contact_win p (ident p).
Proof.
  intros ws i w W Hw Hi Hg. destruct (v_kind _ _ _ _ W _ _ Hw) as [->|[(g & _ & ->)|(p & Hp & _ & ->)]].
  - exfalso. apply Hi. eapply (v_ident _ _ _ _ W i 0); eauto using v_first.
  - discriminate.
  - eauto.
Qed.

Lemma contact_first : forall ws i w, winv me D G ws -> nth_error ws i = Some w -> i <> O -> w_group w = false ->
  first (fun v => eqb (w_nick v) (w_nick w)) ws = Some i.
Proof.
  intros ws i w W Hw Hi Hg. destruct (at_contact _ _ _ W Hw Hi Hg) as (p & Hp & ->).
  eapply first_is; [exact Hw|apply eqb_refl|].
  intros j v Hv E. apply (proj1 (eqb_eq _ _)) in E.
  destruct (v_kind _ _ _ _ W _ _ Hv) as [->|[(g & Hgg & ->)|(q & Hq & _ & ->)]]; cbn in E.
  - exfalso. apply (a_console _ _ A p Hp). auto.
  - exfalso. apply (a_groups _ _ A p Hp). rewrite <- E. auto.
  - eapply (v_ident _ _ _ _ W j i); eauto. cbn. apply (a_contacts _ _ A); auto.
Qed.

Lemma plain_cases : forall t, plain t ->
  has_prefix (bs "/") t = false \/ exists r, t = bs "/me " ++ r.
Proof.
  intros t [H|H]; [auto|]. right. apply has_prefix_inv. exact H.
Qed.

Lemma gc_act : forall o ws g m ws' n a, gc_message me o ws g m = (ws', n, a) ->
  a = Refused \/ exists ms k, mget (o_groups o) g = Some ms /\ a = ToGroup g m (filter (fun x => negb (eqb x (ident me))) ms) k.
Proof.
  intros o ws g m ws' n a H. unfold gc_message in H.
  destruct (group_conversation o ws g) as [[[ws1 k] n1]|]; [|inversion H; auto].
  destruct (mget (o_groups o) g) eqn:M; inversion H; eauto.
Qed.

(** The one step: typed text, in a window that is not the console. *)
Lemma typed_meant : forall o ws active w t ws' n a, winv me D G ws -> nth_error ws active = Some w -> plain t ->
  action me o ws active t = (ws', n, a) -> a = Refused \/ meant w a.
Proof.
  intros o ws active w t ws' n a W Hw P H.
  unfold action in H. destruct t as [|c t]; [inversion H; auto|].
  remember (c :: t) as text eqn:Et. destruct (plain_cases _ P) as [Hp|(r & Hr)].
  - unfold as_command in H. rewrite Hp in H. destruct (Nat.eqb active 0) eqn:E0.
    { (* console *)
      destruct (split_spaces text) as [|a0 [|a1 rest]] eqn:Sp; [inversion H; auto|inversion H; auto|].
      assert (Ha : has_prefix (bs "/") a0 = false).
      { clear - Sp Hp. destruct text as [|c s]; [inversion Sp|]. cbn in Sp.
        destruct (c =? 32) eqn:E; [inversion Sp; subst; reflexivity|].
        destruct (split_some s) as (w & ws & Es). rewrite Es in Sp. inversion Sp; subst.
        cbn in Hp |- *. exact Hp. }
      destruct (eqb a0 (bs "/me")) eqn:E1. { apply (proj1 (eqb_eq _ _)) in E1. subst a0. discriminate. }
      destruct (eqb a0 (bs "/m")) eqn:E2. { apply (proj1 (eqb_eq _ _)) in E2. subst a0. discriminate. }
      destruct (eqb a0 (bs "/msg")) eqn:E3. { apply (proj1 (eqb_eq _ _)) in E3. subst a0. discriminate. }
      destruct (eqb a0 (bs "/gc")) eqn:E4. { apply (proj1 (eqb_eq _ _)) in E4. subst a0. discriminate. }
      cbn in H. inversion H; auto. }
    rewrite Hw in H. apply Nat.eqb_neq in E0.
    destruct (w_group w) eqn:Gw.
    + destruct (v_kind _ _ _ _ W _ _ Hw) as [->|[(g & Hg & ->)|(p & Hp' & _ & ->)]]; try discriminate.
      destruct (a_gblank _ _ A g Hg) as [Hne Hb]. cbn [w_nick group_win] in H.
      replace (bs "/gc m " ++ g ++ bs " " ++ text) with (bs "/gc" ++ 32 :: (bs "m" ++ 32 :: (g ++ 32 :: text))) in H by reflexivity.
      rewrite split_word in H by reflexivity. rewrite split_word in H by reflexivity. rewrite split_word in H by exact Hb.
      change (eqb (bs "/gc") (bs "/me")) with false in H. change (eqb (bs "/gc") (bs "/m")) with false in H.
      change (eqb (bs "/gc") (bs "/msg")) with false in H. change (eqb (bs "/gc") (bs "/gc")) with true in H.
      cbn [orb] in H. unfold do_gc in H.
      change (eqb (bs "m") (bs "me")) with false in H. change (eqb (bs "m") (bs "m")) with true in H. cbn [orb] in H.
      destruct (Nat.ltb _ _); [inversion H; auto|].
      destruct (gc_act _ _ _ _ _ _ _ H) as [->|(ms & k & _ & ->)]; [auto|right; cbn; auto].
    + destruct (at_contact _ _ _ W Hw E0 Gw) as (p & Hp' & ->). cbn [w_nick contact_win] in H.
      pose proof (contact_first _ _ _ W Hw E0 Gw) as F. cbn [w_nick contact_win] in F.
      set (nk := shown_nick p (ident p)) in *.
      replace (bs "/m " ++ nk ++ bs " " ++ text) with (bs "/m" ++ 32 :: (nk ++ 32 :: text)) in H by reflexivity.
      rewrite split_word in H by reflexivity. rewrite split_word in H by (apply (a_blank _ _ A); auto).
      change (eqb (bs "/m") (bs "/me")) with false in H. change (eqb (bs "/m") (bs "/m")) with true in H. cbn [orb] in H.
      destruct (split_some text) as (x & xs & Sx). rewrite Sx in H.
      unfold do_m in H. rewrite F, Hw in H. inversion H; subst. right. cbn. auto.
  - subst text. rewrite Hr in H.
    change (as_command ws active (bs "/me " ++ r)) with (Some (bs "/me" ++ 32 :: r)) in H.
    cbv beta iota in H. rewrite split_word in H by reflexivity.
    destruct (split_some r) as (x & xs & Sx). rewrite Sx in H.
    change (eqb (bs "/me") (bs "/me")) with true in H. unfold do_me in H.
    destruct (Nat.eqb active 0); [inversion H; auto|]. rewrite Hw in H.
    destruct (w_group w) eqn:Gw; [|inversion H; subst; right; cbn; auto].
    destruct (gc_act _ _ _ _ _ _ _ H) as [->|(ms & k & _ & ->)]; [auto|right; cbn; auto].
Qed.

Lemma step_sent : forall s e s', winv me D G (s_wins s) -> (forall t, e = Typed t -> plain t) -> step me s e = Go s' ->
  forall w a, In (w, a) (s_sent s') -> In (w, a) (s_sent s) \/ meant w a.
Proof.
  intros s e s' W P H w a Hin.
  assert (Same : forall t, Go t = Go s' -> s_sent t = s_sent s -> In (w, a) (s_sent s) \/ meant w a).
  { intros t X Y. inversion X; subst. rewrite Y in Hin. auto. }
  destruct e; cbn [step] in H.
  - eapply Same; [exact H|reflexivity].
  - destruct (s_rpc s); [discriminate|]. destruct (get_conversation _ _ _) as [[[ws k] n]|]; (eapply Same; [exact H|reflexivity]).
  - destruct (s_rpc s); [discriminate|]. destruct (mget _ g); [|eapply Same; [exact H|reflexivity]].
    destruct (mem _ _); [|eapply Same; [exact H|reflexivity]].
    destruct (group_conversation _ _ _) as [[[ws k] n]|]; (eapply Same; [exact H|reflexivity]).
  - destruct (s_rpc s); [|discriminate]. eapply Same; [exact H|reflexivity].
  - destruct (s_main s); [|discriminate]. eapply Same; [exact H|reflexivity].
  - eapply Same; [exact H|reflexivity].
  - eapply Same; [exact H|reflexivity].
  - destruct (s_queue s); [discriminate|]. destruct j as [x l'|x|]; cbn [run_job] in H.
    + unfold run_print in H. destruct (Nat.ltb _ _); [|discriminate]. eapply Same; [exact H|reflexivity].
    + unfold run_focus in H. destruct (negb _ && _)%bool; [eapply Same; [exact H|reflexivity]|].
      destruct (Nat.ltb _ _); (eapply Same; [exact H|reflexivity]).
    + unfold run_status in H. destruct (Nat.ltb _ _); [|discriminate]. eapply Same; [exact H|reflexivity].
  - eapply Same; [exact H|reflexivity].
  - destruct (s_main s); [discriminate|].
    destruct (action _ _ _ _ _) as [[ws n] b] eqn:E. specialize (P _ eq_refl).
    destruct (nth_error (s_wins s) (s_active s)) as [v|] eqn:Hv.
    + pose proof (typed_meant _ _ _ _ _ _ _ _ W Hv P E) as M.
      destruct b; try discriminate; try (eapply Same; [exact H|reflexivity]); inversion H; subst; cbn in Hin;
        apply in_app_iff in Hin as [Hin|[Hin|[]]]; auto; inversion Hin; subst; (destruct M as [M|M]; [discriminate|auto]).
    + (* out of range: only an error or a panic *)
      assert (X : b = Panics \/ b = Refused).
      { unfold action in E. destruct text as [|c t]; [inversion E; auto|].
        remember (c :: t) as tt eqn:Et. destruct (plain_cases _ P) as [Hp|(r & Hr)].
        - unfold as_command in E. rewrite Hp in E. destruct (Nat.eqb (s_active s) 0) eqn:E0.
          { apply Nat.eqb_eq in E0. rewrite E0 in Hv. rewrite (v_first _ _ _ _ W) in Hv. discriminate. }
          rewrite Hv in E. inversion E; auto.
        - subst tt. rewrite Hr in E.
          change (as_command (s_wins s) (s_active s) (bs "/me " ++ r)) with (Some (bs "/me" ++ 32 :: r)) in E.
          cbv beta iota in E. rewrite split_word in E by reflexivity.
          destruct (split_some r) as (x & xs & Sx). rewrite Sx in E.
          change (eqb (bs "/me") (bs "/me")) with true in E. unfold do_me in E.
          destruct (Nat.eqb (s_active s) 0); [inversion E; auto|]. rewrite Hv in E. inversion E; auto. }
      destruct X; subst b; [discriminate|]. eapply Same; [exact H|reflexivity].
  - destruct (s_main s); [discriminate|]. destruct (first _ _); [eapply Same; [exact H|reflexivity]|].
    destruct (group_conversation _ _ _) as [[[ws k] x]|]; [eapply Same; [exact H|reflexivity]|].
    destruct (book_conversation _ _ _ _) as [[[ws k] x]|]; (eapply Same; [exact H|reflexivity]).
  - destruct (s_main s); [discriminate|]. destruct (_ || _)%bool; (eapply Same; [exact H|reflexivity]).
  - destruct (s_main s); [discriminate|]. eapply Same; [exact H|reflexivity].
Qed.

End Typing.

(** Whoever comes and goes, whatever is opened and closed and whenever: if contacts and
    groups have names that keep them apart, then each text typed in a window, and each
    /me, went to that window's own contact or group. *)
Theorem C69_recipient : forall me D G o es s w a,
  apart D G -> good D G o -> Forall (ev_good D G) es ->
  (forall t, In (Typed t) es -> plain t) ->
  exec me (start me o) es = Go s -> In (w, a) (s_sent s) -> meant w a.
Proof.
  intros me D G o es s w a A Ho He P H Hin.
  assert (X : forall es s0, good D G (s_world s0) -> winv me D G (s_wins s0) -> Forall (ev_good D G) es ->
    (forall t, In (Typed t) es -> plain t) -> (forall w a, In (w, a) (s_sent s0) -> meant w a) ->
    exec me s0 es = Go s -> meant w a).
  { clear He P H es. induction es; cbn; intros s0 Go0 W He P I H.
    - inversion H; subst. auto.
    - inversion He; subst. destruct (step me s0 a0) eqn:E; try discriminate.
      destruct (step_winv me D G _ _ _ Go0 H2 W E) as (W' & Go' & _).
      eapply IHes; [exact Go'|exact W'|auto|auto| |exact H].
      intros w1 a1 H1. destruct (step_sent me D G A _ _ _ W (fun t X => P t (or_introl X)) E w1 a1 H1); auto. }
  eapply X; [| |exact He|exact P| |exact H]; auto.
  - apply start_winv.
  - cbn. tauto.
Qed.
Print Assumptions C69_recipient.

(** And the text arrives as typed, but for white space at its end: a text that does not
    start with "/" and has a last character [z] that is not white space. *)
Theorem C69_text : forall me D G o es s i p t z sp,
  apart D G -> good D G o -> Forall (ev_good D G) es -> exec me (start me o) es = Go s ->
  s_active s = i -> i <> O -> nth_error (s_wins s) i = Some (contact_win p (ident p)) -> D p ->
  has_prefix (bs "/") (t ++ [z]) = false -> is_space z = false -> forallb is_space sp = true ->
  action me (s_world s) (s_wins s) i ((t ++ [z]) ++ sp)
    = (s_wins s, false, Private (ident p) (t ++ [z]) (Some i)).
Proof.
  intros me D G o es s i p t z sp A Ho He H Ha Hi Hw Hp Hx Hz Hs.
  destruct (exec_winv me D G es (start me o) s Ho He (start_winv me D G) H) as (W & _).
  unfold action. destruct ((t ++ [z]) ++ sp) as [|c r] eqn:Et.
  { apply app_eq_nil in Et as [Et _]. apply app_eq_nil in Et as [_ Et]. discriminate. }
  rewrite <- Et. clear Et c r.
  assert (Hx' : has_prefix (bs "/") ((t ++ [z]) ++ sp) = false).
  { destruct t; cbn in *; auto. }
  unfold as_command. rewrite Hx'. apply Nat.eqb_neq in Hi as Hi'. rewrite Hi', Hw.
  pose proof (contact_first me D G A _ _ _ W Hw Hi eq_refl) as F.
  cbn [w_nick w_group contact_win] in *. set (nk := shown_nick p (ident p)) in *.
  replace (bs "/m " ++ nk ++ bs " " ++ (t ++ [z]) ++ sp) with (bs "/m" ++ 32 :: (nk ++ 32 :: (t ++ [z]) ++ sp)) by reflexivity.
  rewrite split_word by reflexivity. rewrite split_word by (apply (a_blank _ _ A); auto).
  change (eqb (bs "/m") (bs "/me")) with false. change (eqb (bs "/m") (bs "/m")) with true. cbn [orb].
  destruct (split_some ((t ++ [z]) ++ sp)) as (x & xs & Sx). rewrite Sx.
  unfold do_m. rewrite F, Hw. rewrite trim_prefix_app.
  rewrite text_out; auto; [apply shown_some, (a_some _ _ A)|apply (a_blank _ _ A)]; auto.
Qed.
Print Assumptions C69_text.

(** In a group's window: to every member but oneself. *)
Theorem C69_group : forall me D G o es s i g ms t z sp,
  apart D G -> good D G o -> Forall (ev_good D G) es -> exec me (start me o) es = Go s ->
  s_active s = i -> i <> O -> nth_error (s_wins s) i = Some (group_win g) ->
  mget (o_groups (s_world s)) g = Some ms -> nick me <> g ->
  has_prefix (bs "/") (t ++ [z]) = false -> is_space z = false -> forallb is_space sp = true ->
  exists to, action me (s_world s) (s_wins s) i ((t ++ [z]) ++ sp)
    = (s_wins s, false, ToGroup g (t ++ [z]) to i) /\
  forall m, In m to <-> In m ms /\ m <> ident me.
Proof.
  intros me D G o es s i g ms t z sp A Ho He H Ha Hi Hw M Hme Hx Hz Hs.
  destruct (exec_winv me D G es (start me o) s Ho He (start_winv me D G) H) as (W & [_ Hgood]).
  destruct (a_gblank _ _ A g (Hgood _ _ M)) as [Hne Hb].
  exists (filter (fun x => negb (eqb x (ident me))) ms). split.
  2:{ intros m. rewrite filter_In. split; intros [H1 H2]; split; auto.
      - intros ->. rewrite eqb_refl in H2. discriminate.
      - destruct (eqb m (ident me)) eqn:E; auto. apply (proj1 (eqb_eq _ _)) in E. congruence. }
  unfold action. destruct ((t ++ [z]) ++ sp) as [|c r] eqn:Et.
  { apply app_eq_nil in Et as [Et _]. apply app_eq_nil in Et as [_ Et]. discriminate. }
  rewrite <- Et. clear Et c r.
  assert (Hx' : has_prefix (bs "/") ((t ++ [z]) ++ sp) = false).
  { destruct t; cbn in *; auto. }
  unfold as_command. rewrite Hx'. apply Nat.eqb_neq in Hi as Hi'. rewrite Hi', Hw.
  cbn [w_nick w_group group_win].
  replace (bs "/gc m " ++ g ++ bs " " ++ (t ++ [z]) ++ sp)
    with (bs "/gc" ++ 32 :: (bs "m" ++ 32 :: (g ++ 32 :: (t ++ [z]) ++ sp))) by reflexivity.
  rewrite split_word by reflexivity. rewrite split_word by reflexivity. rewrite split_word by auto.
  change (eqb (bs "/gc") (bs "/me")) with false. change (eqb (bs "/gc") (bs "/m")) with false.
  change (eqb (bs "/gc") (bs "/msg")) with false. change (eqb (bs "/gc") (bs "/gc")) with true.
  cbn [orb]. unfold do_gc.
  change (eqb (bs "m") (bs "me")) with false. change (eqb (bs "m") (bs "m")) with true. cbn [orb].
  destruct (split_some ((t ++ [z]) ++ sp)) as (x & xs & Sx). rewrite Sx.
  replace (Nat.ltb (length (bs "/gc" :: bs "m" :: g :: x :: xs)) 4) with false by reflexivity.
  rewrite trim_prefix_app.
  destruct (head_of g Hne) as (c & r & Hg).
  assert (Hc : is_space c = false).
  { rewrite Hg in Hb. cbn in Hb. apply andb_prop in Hb as [Hb _]. destruct (is_space c); auto. }
  replace (32 :: bs "m" ++ 32 :: (g ++ 32 :: (t ++ [z]) ++ sp))
    with ([32] ++ (109 :: (32 :: g ++ 32 :: t) ++ [z]) ++ sp).
  2:{ cbn. repeat rewrite <- app_assoc. cbn. repeat rewrite <- app_assoc. reflexivity. }
  rewrite trim_mid by auto.
  replace (109 :: (32 :: g ++ 32 :: t) ++ [z]) with (bs "m" ++ (32 :: g ++ 32 :: (t ++ [z]) ++ [])).
  2:{ rewrite app_nil_r. cbn. repeat rewrite <- app_assoc. reflexivity. }
  rewrite trim_prefix_app, text_out by auto.
  unfold gc_message, group_conversation. rewrite M. unfold place.
  erewrite first_is; [reflexivity|exact Hw|apply eqb_refl|].
  intros j v Hv E. apply (proj1 (eqb_eq _ _)) in E.
  destruct (v_kind _ _ _ _ W _ _ Hv) as [->|[(g' & Hg' & ->)|(q & Hq & _ & ->)]]; cbn in E.
  - congruence.
  - eapply (v_group _ _ _ _ W j i); eauto.
  - exfalso. apply (a_groups _ _ A q Hq). unfold shown_nick. rewrite E.
    destruct g; [congruence|]. eauto.
Qed.
Print Assumptions C69_group.

(** /me goes to the window's own contact, whatever anybody is called. *)
Theorem C69_me : forall me o ws i w r, nth_error ws i = Some w -> i <> O -> w_group w = false ->
  exists m, action me o ws i (bs "/me " ++ r) = (ws, false, Private (ident (w_pub w)) m None).
Proof.
  intros me o ws i w r Hw Hi Hg. exists (trim (trim_prefix (bs "/me " ++ r) (bs "/me"))). unfold action.
  change (bs "/me " ++ r) with (bs "/me" ++ 32 :: r).
  change (as_command ws i (bs "/me" ++ 32 :: r)) with (Some (bs "/me" ++ 32 :: r)).
  cbn match. rewrite split_word by reflexivity.
  destruct (split_some r) as (x & xs & Sx). rewrite Sx.
  change (eqb (bs "/me") (bs "/me")) with true. unfold do_me.
  apply Nat.eqb_neq in Hi. rewrite Hi, Hw, Hg. reflexivity.
Qed.
Print Assumptions C69_me.

(** What arrives: every message is shown once and in the order of arrival (or still
    waits, in that order); a private message in its sender's window, a group's message
    in the window that has the group's name. *)
Theorem C69_shown : forall me D G o es s,
  good D G o -> Forall (ev_good D G) es -> exec me (start me o) es = Go s ->
  msgs (map snd (s_shown s)) ++ waiting s = arrived me (start me o) es /\
  (gently me (start me o) es ->
   (forall w f t, In (w, Said f t) (s_shown s) ->
      exists v, w = Some v /\ w_group v = false /\ ident (w_pub v) = f) /\
   (forall w g f t, In (w, GroupSaid g f t) (s_shown s) ->
      exists v, w = Some v /\ nick (w_pub v) = g /\
        (nick me <> g -> (forall p, D p -> nick p <> g) -> v = group_win g))).
Proof.
  intros me D G o es s Ho He H. split.
  - rewrite (exec_order me es (start me o) s); auto. cbn. discriminate.
  - intros Q.
    pose proof (exec_shows me D G es (start me o) s Ho He (start_winv me D G) (start_shows me D G o) Q H) as Sh.
    split; intros.
    + destruct (h_shown _ _ _ _ Sh _ _ H0) as (v & ? & ? & ?). eauto.
    + destruct (h_shown _ _ _ _ Sh _ _ H0) as (v & ? & ? & K). exists v. split; [auto|split; [auto|]].
      intros N1 N2. destruct K as [->|[(g' & _ & ->)|(p & Hp & _ & ->)]]; cbn in H2.
      * contradiction.
      * subst g'. reflexivity.
      * exfalso. apply (N2 p Hp). auto.
Qed.
Print Assumptions C69_shown.

(** The client does not stop over its windows, as long as windows are closed only while
    nothing at all waits to be drawn and nothing is typed until the console is shown
    again. *)
Fixpoint calm (me : PublicIdentity) (s : st) (es : list ev) : Prop :=
  match es with
  | [] => True
  | e :: r => (closing e -> s_queue s = []) /\
              (forall t, e = Typed t -> ~ In (Focus O) (s_queue s)) /\
              match step me s e with Go s' => calm me s' r | _ => True end
  end.

Definition drawable (s : st) : Prop :=
  (0 < length (s_wins s))%nat /\
  ((s_active s < length (s_wins s))%nat \/ exists q, s_queue s = Focus O :: q).

Lemma place_grows : forall f n ws ws' k b, place f n ws = (ws', k, b) -> (length ws <= length ws')%nat.
Proof.
  intros. unfold place in H. destruct (first f ws); inversion H; subst; auto. rewrite app_length. cbn. lia.
Qed.
Lemma get_grows : forall o ws id ws' k b, get_conversation o ws id = Some (ws', k, b) -> (length ws <= length ws')%nat.
Proof. intros. unfold get_conversation in H. destruct (mget _ _); [|discriminate]. inversion H. eapply place_grows; eauto. Qed.
Lemma group_grows : forall o ws g ws' k b, group_conversation o ws g = Some (ws', k, b) -> (length ws <= length ws')%nat.
Proof. intros. unfold group_conversation in H. destruct (mget _ _); [|discriminate]. inversion H. eapply place_grows; eauto. Qed.
Lemma book_grows : forall me o ws n ws' k b, book_conversation me o ws n = Some (ws', k, b) -> (length ws <= length ws')%nat.
Proof.
  intros. unfold book_conversation in H. destruct (eqb _ _); [discriminate|].
  destruct (find_nick _ _); [|discriminate]. eapply get_grows; eauto.
Qed.
Lemma gc_grows : forall me o ws g m ws' n a, gc_message me o ws g m = (ws', n, a) -> (length ws <= length ws')%nat /\ a <> Panics.
Proof.
  intros. unfold gc_message in H. destruct (group_conversation o ws g) as [[[ws1 k] b]|] eqn:E.
  - apply group_grows in E. destruct (mget _ _); inversion H; subst; split; auto; discriminate.
  - inversion H; subst. split; auto. discriminate.
Qed.
Lemma action_grows : forall me o ws i t ws' n a, action me o ws i t = (ws', n, a) ->
  (length ws <= length ws')%nat /\ ((i < length ws)%nat -> a <> Panics).
Proof.
  intros me o ws i t ws' n a H.
  assert (Triv : forall b, (ws, b, Refused) = (ws', n, a) -> (length ws <= length ws')%nat /\ ((i < length ws)%nat -> a <> Panics)).
  { intros b X. inversion X; subst. split; [auto|discriminate]. }
  unfold action in H. destruct t; [eauto|].
  destruct (as_command _ _ _) as [cmd|] eqn:C.
  2:{ inversion H; subst. split; [auto|]. intros L _. unfold as_command in C.
      destruct (has_prefix _ _); [discriminate|]. destruct (Nat.eqb i 0); [discriminate|].
      destruct (nth_error ws' i) eqn:E; [discriminate|]. apply nth_error_None in E. lia. }
  destruct (split_spaces cmd) as [|a0 [|a1 rest]]; [eauto|eauto|].
  destruct (eqb a0 (bs "/me")).
  { unfold do_me in H. destruct (Nat.eqb i 0); [eauto|].
    destruct (nth_error ws i) eqn:E.
    - destruct (w_group w); [|inversion H; subst; split; [auto|discriminate]].
      destruct (gc_grows _ _ _ _ _ _ _ _ H). auto.
    - inversion H; subst. split; [auto|]. apply nth_error_None in E. lia. }
  destruct (eqb a0 (bs "/m") || eqb a0 (bs "/msg"))%bool.
  { destruct rest; [eauto|]. unfold do_m in H.
    destruct (first _ ws). { destruct (nth_error ws _); [|eauto]. inversion H; subst. split; [auto|discriminate]. }
    destruct (book_conversation me o ws a1) as [[[ws1 k] n1]|] eqn:E; [|eauto].
    apply book_grows in E. destruct (nth_error ws1 k); inversion H; subst; split; auto; discriminate. }
  destruct (eqb a0 (bs "/gc")); [|eauto].
  unfold do_gc in H. destruct rest as [|g rest]; [eauto|].
  destruct (_ || _)%bool; [|eauto]. destruct (Nat.ltb _ _); [eauto|].
  destruct (gc_grows _ _ _ _ _ _ _ _ H). auto.
Qed.

Lemma drawable_app : forall s t, drawable s -> (length (s_wins s) <= length (s_wins t))%nat -> s_active t = s_active s ->
  (exists js, s_queue t = s_queue s ++ js) -> drawable t.
Proof.
  intros s t [H1 H2] L E (js & Q). split; [lia|]. destruct H2 as [H2|(q & H2)]; [left; lia|].
  right. rewrite Q, H2. exists (q ++ js). reflexivity.
Qed.

Lemma step_drawable : forall me s e, drawable s -> (closing e -> s_queue s = []) ->
  (forall t, e = Typed t -> ~ In (Focus O) (s_queue s)) ->
  match step me s e with Go s' => drawable s' | Dead => False | Stuck => True end.
Proof.
  intros me s e Dr C T.
  assert (Same : forall t, (length (s_wins s) <= length (s_wins t))%nat -> s_active t = s_active s ->
    (exists js, s_queue t = s_queue s ++ js) -> drawable t) by (intros; eapply drawable_app; eauto).
  assert (K : forall js, exists js', s_queue s ++ js = s_queue s ++ js') by eauto.
  assert (K0 : exists js, s_queue s = s_queue s ++ js) by (exists []; rewrite app_nil_r; auto).
  destruct e; cbn [step].
  - apply Same; auto.
  - destruct (s_rpc s); [exact I|]. destruct (get_conversation _ _ _) as [[[ws k] n]|] eqn:E; [|apply Same; auto].
    apply get_grows in E. apply Same; cbn; auto.
  - destruct (s_rpc s); [exact I|]. destruct (mget _ g); [|apply Same; auto].
    destruct (mem _ _); [|apply Same; auto].
    destruct (group_conversation _ _ _) as [[[ws k] n]|] eqn:E; [|apply Same; auto].
    apply group_grows in E. apply Same; cbn; auto.
  - destruct (s_rpc s); [|exact I]. apply Same; cbn; auto.
  - destruct (s_main s); [|exact I]. apply Same; cbn; auto.
  - apply Same; cbn; auto.
  - apply Same; cbn; auto.
  - destruct Dr as [D1 D2]. destruct (s_queue s) as [|j q] eqn:Eq; [exact I|].
    assert (A : (s_active s < length (s_wins s))%nat \/ j = Focus O).
    { destruct D2 as [D2|(q' & D2)]; [auto|]. inversion D2; auto. }
    clear D2. destruct j as [x l|x|]; cbn [run_job].
    + destruct A as [A|A]; [|discriminate]. unfold run_print. cbn. apply Nat.ltb_lt in A as A'. cbn in A'. rewrite A'.
      split; cbn; auto.
    + unfold run_focus. cbn [s_active s_wins set_queue].
      destruct (negb (Nat.eqb x 0) && Nat.eqb x (s_active s))%bool eqn:B.
      * split; cbn; auto. left. destruct A as [A|A]; [auto|]. inversion A; subst. discriminate.
      * destruct (Nat.ltb_spec x (length (s_wins s))).
        -- split; cbn; auto.
        -- split; cbn; auto. left. destruct A as [A|A]; [auto|]. inversion A; subst. lia.
    + destruct A as [A|A]; [|discriminate]. unfold run_status. cbn. apply Nat.ltb_lt in A as A'. cbn in A'. rewrite A'.
      split; cbn; auto.
  - apply Same; cbn; auto.
  - destruct (s_main s); [exact I|].
    destruct (action _ _ _ _ _) as [[ws n] a] eqn:E. destruct (action_grows _ _ _ _ _ _ _ _ E) as [G1 G2].
    assert (A : (s_active s < length (s_wins s))%nat).
    { destruct Dr as [_ [Dr|(q & Dr)]]; [auto|]. exfalso. apply (T _ eq_refl). rewrite Dr. left. auto. }
    specialize (G2 A). destruct a; [congruence| | |]; apply Same; cbn; auto.
  - destruct (s_main s); [exact I|]. destruct (first _ _); [apply Same; cbn; auto|].
    destruct (group_conversation _ _ _) as [[[ws k] x]|] eqn:E.
    { apply group_grows in E. apply Same; cbn; auto. }
    destruct (book_conversation _ _ _ _) as [[[ws k] x]|] eqn:E2.
    { apply book_grows in E2. apply Same; cbn; auto. }
    apply Same; cbn; auto.
  - destruct (s_main s); [exact I|]. destruct (Nat.eqb_spec (s_active s) 0); [apply Same; auto|]. cbn [orb].
    destruct (Nat.ltb_spec (s_active s) (length (s_wins s))); [|apply Same; auto]. cbn [negb].
    split; cbn [enqueue set_queue s_wins set_wins s_queue].
    + rewrite app_length, firstn_length. lia.
    + right. rewrite (C I). cbn. eauto.
  - destruct (s_main s); [exact I|]. split; cbn [enqueue set_queue s_wins set_wins s_queue].
    + destruct Dr as [D1 _]. rewrite firstn_length. lia.
    + right. rewrite (C I). cbn. eauto.
Qed.

Theorem C69_alive : forall me o es, calm me (start me o) es -> exec me (start me o) es <> Dead.
Proof.
  intros me o es. assert (H : drawable (start me o)) by (split; cbn; lia). revert H.
  generalize (start me o). induction es; cbn; intros s H C; [discriminate|].
  destruct C as (C1 & C2 & C3). pose proof (step_drawable me s a H C1 C2) as X.
  destruct (step me s a); [auto|contradiction|discriminate].
Qed.
Print Assumptions C69_alive.

(** ** Saving and restoring *)

(** The commands among events (the others only draw). *)
Definition command (e : ev) : bool :=
  match e with Rpc | Main | Notice _ | Tick | Run | Look _ => false | _ => true end.

Lemma draws_only : forall me s e s', command e = false -> step me s e = Go s' ->
  s_wins s' = s_wins s /\ s_world s' = s_world s.
Proof.
  intros me s e s' C H. destruct e; try discriminate; cbn [step] in H.
  - destruct (s_rpc s); [|discriminate]. inversion H; subst; auto.
  - destruct (s_main s); [|discriminate]. inversion H; subst; auto.
  - inversion H; subst; auto.
  - inversion H; subst; auto.
  - destruct (s_queue s); [discriminate|]. destruct (run_job_wins _ _ _ H). auto.
  - inversion H; subst; auto.
Qed.

(** A window that finds itself again: its contact is stored as before, and in the
    address book under the nick the window shows; or its group still exists. *)
Definition found_again (me : PublicIdentity) (o : world) (w : win) : Prop :=
  (exists p q, w = contact_win p (ident p) /\ mget (o_disk o) (ident p) = Some p /\
     mget (o_book o) (w_nick w) = Some q /\ ident q = ident p /\ ident p <> ident me /\
     w_nick w <> nick me /\ mget (o_groups o) (w_nick w) = None /\ ident p <> zeros 32) \/
  (exists g ms, w = group_win g /\ g <> [] /\ mget (o_groups o) g = Some ms /\ g <> nick me).

Lemma query_again : forall me s w s' done, s_wins s = console me :: done ->
  found_again me (s_world s) w -> Forall (found_again me (s_world s)) done ->
  (forall v, In v done -> w_nick v <> w_nick w) -> (forall v, In v done -> w_group v = false -> w_group w = false -> ident (w_pub v) <> ident (w_pub w)) ->
  w_nick w <> bs "console" ->
  step me s (Query (w_nick w)) = Go s' -> s_wins s' = console me :: done ++ [w] /\ s_world s' = s_world s.
Proof.
  intros me s w s' done Hws F Fs N I C H. cbn [step] in H. destruct (s_main s); [discriminate|].
  rewrite Hws in H.
  assert (F1 : first (fun v => eqb (w_nick v) (w_nick w)) (console me :: done) = None).
  { destruct (first _ _) as [k|] eqn:E; [|auto]. exfalso.
    destruct (first_some _ _ _ E) as (v & Hv & Ev). apply (proj1 (eqb_eq _ _)) in Ev.
    destruct k; cbn in Hv; [injection Hv as <-; apply C; symmetry; exact Ev|].
    apply nth_error_In in Hv. eapply N; eauto. }
  rewrite F1 in H. destruct F as [(p & q & Hw & Md & Mb & Hq & Hme & Hn & Mg & Hz)|(g & ms & Hw & Hg & Mg & Hn)].
  - unfold group_conversation in H at 1. rewrite Mg in H.
    unfold book_conversation, find_nick in H.
    destruct (eqb (w_nick w) (nick me)) eqn:E; [apply (proj1 (eqb_eq _ _)) in E; congruence|].
    rewrite Mb in H. unfold get_conversation in H. rewrite Hq, Md in H. unfold place in H.
    assert (F2 : first (fun v => eqb (ident (w_pub v)) (ident p)) (console me :: done) = None).
    { destruct (first _ _) as [k|] eqn:E2; [|auto]. exfalso.
      destruct (first_some _ _ _ E2) as (v & Hv & Ev). apply (proj1 (eqb_eq _ _)) in Ev.
      destruct k; cbn in Hv; [inversion Hv; subst; cbn in Ev; congruence|].
      apply nth_error_In in Hv. rewrite Forall_forall in Fs. destruct (Fs v Hv) as [(p' & q' & Hv' & _)|(g & ms & Hv' & _)].
      - eapply (I v); auto; subst; auto.
      - subst v. apply Hz. rewrite <- Ev. reflexivity. }
    rewrite F2 in H. inversion H; subst. cbn. auto.
  - subst w. cbn [w_nick group_win] in *. unfold group_conversation in H at 1. rewrite Mg in H. unfold place in H.
    assert (F2 : first (fun v => eqb (nick (w_pub v)) g) (console me :: done) = None).
    { clear F1. destruct (first _ _) as [k|] eqn:E2; [|auto]. exfalso.
      destruct (first_some _ _ _ E2) as (v & Hv & Ev). apply (proj1 (eqb_eq _ _)) in Ev.
      destruct k; cbn in Hv; [inversion Hv; subst; cbn in Hn; congruence|].
      apply nth_error_In in Hv. apply (N v Hv).
      rewrite Forall_forall in Fs. destruct (Fs v Hv) as [(p' & q' & Hv' & _)|(g' & ms' & Hv' & _)]; subst v.
      - cbn in Ev. cbn [w_nick contact_win]. unfold shown_nick. rewrite Ev. destruct g; congruence.
      - exact Ev. }
    rewrite F2 in H. inversion H; subst. cbn. auto.
Qed.

(** What was saved comes back: the same windows in the same order, if the nicks shown
    are different and each window can be found again. *)
Theorem C69_restore : forall me s ws es s',
  s_wins s = console me :: ws ->
  Forall (found_again me (s_world s)) ws ->
  NoDup (map w_nick ws) -> ~ In (bs "console") (map w_nick ws) ->
  (forall i j v w, nth_error ws i = Some v -> nth_error ws j = Some w -> w_group v = false -> w_group w = false ->
     ident (w_pub v) = ident (w_pub w) -> i = j) ->
  filter command es = restore_commands (saved s) ->
  exec me s es = Go s' -> s_wins s' = s_wins s.
Proof.
  intros me s ws es s' Hws Fs ND NC NI Hes H.
  assert (Main : forall es todo done s0, s_wins s0 = console me :: done -> s_world s0 = s_world s -> done ++ todo = ws ->
    filter command es = map Query (map w_nick todo) -> exec me s0 es = Go s' -> s_wins s' = console me :: ws).
  { clear Hes H es. induction es; cbn [filter]; intros todo done s0 W0 O0 Ap Hes H.
    - destruct todo; [|discriminate]. rewrite app_nil_r in Ap. subst. cbn in H. inversion H; subst. auto.
    - cbn [exec] in H. destruct (step me s0 a) eqn:E; try discriminate.
      destruct (command a) eqn:C.
      + destruct todo as [|w todo]; [discriminate|]. cbn in Hes. inversion Hes; subst a.
        assert (X : s_wins s1 = console me :: done ++ [w] /\ s_world s1 = s_world s0).
        { rewrite <- Ap in Fs, ND, NC. apply Forall_app in Fs as [Fd Ft]. inversion Ft; subst.
          rewrite map_app in ND, NC. eapply query_again; eauto.
          - rewrite O0. auto.
          - rewrite O0. auto.
          - intros v Hv X. apply NoDup_remove_2 in ND. apply ND. apply in_or_app. left. rewrite <- X. apply in_map. auto.
          - intros v Hv G1 G2 X. destruct (In_nth_error _ _ Hv) as (i & Hi).
            assert (L : (i < length done)%nat) by (apply nth_error_Some; congruence).
            assert (Z : i = length done); [|lia].
            apply (NI i (length done) v w); auto.
            + rewrite nth_error_app1; auto.
            + rewrite nth_error_app2, Nat.sub_diag by lia. reflexivity.
          - intros X. apply NC. apply in_or_app. right. left. auto. }
        destruct X as [X1 X2].
        eapply (IHes todo (done ++ [w])); [exact X1|congruence| |auto|exact H].
        rewrite <- app_assoc. auto.
      + destruct (draws_only _ _ _ _ C E) as (X1 & X2).
        eapply IHes; [rewrite X1; exact W0|congruence|exact Ap|exact Hes|exact H]. }
  unfold saved in Hes. rewrite Hws in Hes. cbn [skipn] in Hes. rewrite Hws.
  clear - Main Hes H Hws.
  assert (Pre : forall es s0, s_wins s0 = console me :: ws -> s_world s0 = s_world s ->
    filter command es = restore_commands (map w_nick ws) -> exec me s0 es = Go s' -> s_wins s' = console me :: ws).
  { clear H Hes es. induction es; cbn [filter]; intros s0 W0 O0 Hes H; [discriminate|].
    cbn [exec] in H. destruct (step me s0 a) eqn:E; try discriminate.
    destruct (command a) eqn:C.
    - unfold restore_commands in Hes. inversion Hes; subst a. cbn [step] in E.
      destruct (s_main s0); [discriminate|]. inversion E; subst.
      eapply (Main es ws []); [| |reflexivity|assumption|exact H]; cbn [enqueue set_queue s_wins set_wins s_world]; auto.
      rewrite W0. reflexivity.
    - destruct (draws_only _ _ _ _ C E) as (X1 & X2). eapply IHes; [rewrite X1; exact W0|rewrite X2; exact O0|exact Hes|exact H]. }
  eapply Pre; eauto.
Qed.
Print Assumptions C69_restore.

(** ** Where it fails *)

(** Two windows with the same nick: what is typed in the later one goes to the contact
    of the earlier one (or of one before it), and is echoed there. *)
Theorem C69_imposter : forall me o ws i j v w t,
  (i < j)%nat -> nth_error ws i = Some v -> nth_error ws j = Some w ->
  w_group w = false -> w_nick v = w_nick w -> no_blank (w_nick w) = true ->
  t <> [] -> has_prefix (bs "/") t = false ->
  exists k u m, (k <= i)%nat /\ nth_error ws k = Some u /\ w_nick u = w_nick w /\
    action me o ws j t = (ws, false, Private (ident (w_pub u)) m (Some k)).
Proof.
  intros me o ws i j v w t L Hv Hw Gw En Nb Nt Hp.
  destruct (first (fun u => eqb (w_nick u) (w_nick w)) ws) as [k|] eqn:F.
  2:{ apply nth_error_In in Hw. pose proof (first_none _ _ F _ Hw) as X. cbv beta in X. rewrite eqb_refl in X. discriminate. }
  destruct (first_some _ _ _ F) as (u & Hu & Eu). apply (proj1 (eqb_eq _ _)) in Eu.
  exists k, u, (trim_blanks (trim_prefix (trim (trim_prefix (bs "/m" ++ 32 :: (w_nick w ++ 32 :: t)) (bs "/m"))) (w_nick w ++ bs " "))).
  split; [|split; [auto|split; [auto|]]].
  - destruct (Nat.le_gt_cases k i); auto. pose proof (first_least _ _ _ F _ _ H Hv) as X. cbv beta in X.
    rewrite En, eqb_refl in X. discriminate.
  - unfold action. destruct t as [|c t]; [congruence|]. remember (c :: t) as text.
    unfold as_command. rewrite Hp. destruct j; [lia|]. change (Nat.eqb (S j) 0) with false. cbv beta iota. rewrite Hw, Gw.
    change (bs "/m " ++ w_nick w ++ bs " " ++ text) with (bs "/m" ++ 32 :: (w_nick w ++ 32 :: text)).
    rewrite split_word by reflexivity. rewrite split_word by auto.
    change (eqb (bs "/m") (bs "/me")) with false. change (eqb (bs "/m") (bs "/m")) with true. cbn [orb].
    destruct (split_some text) as (x & xs & Sx). rewrite Sx.
    unfold do_m. rewrite F, Hu. reflexivity.
Qed.
Print Assumptions C69_imposter.

(** Text of nothing but blanks sends the contact's own nick. *)
Theorem C69_blank : forall me o ws j w sp,
  j <> O -> nth_error ws j = Some w -> w_group w = false -> w_nick w <> [] -> no_blank (w_nick w) = true ->
  first (fun u => eqb (w_nick u) (w_nick w)) ws = Some j ->
  sp <> [] -> forallb (N.eqb 32) sp = true ->
  action me o ws j sp = (ws, false, Private (ident (w_pub w)) (w_nick w) (Some j)).
Proof.
  intros me o ws j w sp Hj Hw Gw Ne Nb F Ns Hs.
  assert (Hsp : forallb is_space sp = true).
  { clear - Hs. induction sp as [|c sp IH]; [reflexivity|]. cbn [forallb] in *. apply andb_prop in Hs as [E Hs].
    apply N.eqb_eq in E. subst c. rewrite (IH Hs). reflexivity. }
  unfold action. destruct sp as [|c t]; [congruence|]. cbn [forallb] in Hs. apply andb_prop in Hs as [Ec _].
  apply N.eqb_eq in Ec. subst c. remember (32 :: t) as text.
  unfold as_command. replace (has_prefix (bs "/") text) with false by (subst; reflexivity).
  apply Nat.eqb_neq in Hj. rewrite Hj, Hw, Gw.
  change (bs "/m " ++ w_nick w ++ bs " " ++ text) with (bs "/m" ++ 32 :: (w_nick w ++ 32 :: text)).
  rewrite split_word by reflexivity. rewrite split_word by auto.
  change (eqb (bs "/m") (bs "/me")) with false. change (eqb (bs "/m") (bs "/m")) with true. cbn [orb].
  destruct (split_some text) as (x & xs & Sx). rewrite Sx.
  unfold do_m. rewrite F, Hw, trim_prefix_app.
  assert (X : exists r z, w_nick w = r ++ [z]).
  { destruct (exists_last Ne) as (r & z & E). eauto. }
  destruct X as (r & z & En).
  assert (Hz : is_space z = false).
  { rewrite En in Nb. unfold no_blank in Nb. rewrite forallb_app in Nb. apply andb_prop in Nb as [_ Nb].
    cbn in Nb. rewrite Bool.andb_true_r in Nb. destruct (is_space z); auto. }
  assert (T : trim (32 :: w_nick w ++ 32 :: text) = w_nick w).
  { rewrite En. destruct r as [|c r].
    - unfold trim. cbn [app trim_left]. change (is_space 32) with true. cbv iota. rewrite Hz.
      change (z :: 32 :: text) with ([z] ++ 32 :: text). rewrite rev_app_distr, trim_left_app.
      + cbn. rewrite Hz. reflexivity.
      + rewrite forallb_rev. cbn. auto.
    - replace (32 :: ((c :: r) ++ [z]) ++ 32 :: text) with ([32] ++ (c :: r ++ [z]) ++ 32 :: text) by reflexivity.
      apply trim_mid; auto. rewrite En in Nb. cbn in Nb. apply andb_prop in Nb as [Nb _]. destruct (is_space c); auto. }
  rewrite T.
  assert (P : trim_prefix (w_nick w) (w_nick w ++ bs " ") = w_nick w).
  { unfold trim_prefix. replace (has_prefix (w_nick w ++ bs " ") (w_nick w)) with false; auto.
    clear. induction (w_nick w); cbn; auto. rewrite N.eqb_refl. auto. }
  rewrite P, En, trim_blanks_end by auto. rewrite <- En. reflexivity.
Qed.
Print Assumptions C69_blank.

(** ** Cases *)

Ltac trace := vm_compute; repeat split; intros; try discriminate; try tauto;
  try match goal with H : False |- _ => destruct H end; intros X; repeat destruct X as [X|X]; try discriminate; try tauto.

Definition human (k : N) (n : bytes) : PublicIdentity :=
  mkPublicIdentity (bs "somebody") n (repeat k 32) (repeat k 32) (repeat k 32) (repeat k 32) (repeat k 64).
Definition me0 := human 9 (bs "me").
Definition bob := human 1 (bs "bob").
Definition bob2 := human 2 (bs "bob").
Definition carol := human 3 (bs "carol").
Definition dave := human 4 (bs "dave").
Definition disk_of (ps : list PublicIdentity) := map (fun p => (ident p, p)) ps.
Definition knows (ps : list PublicIdentity) (gs : list (bytes * list bytes)) : world :=
  mkWorld (disk_of ps) (load (ident me0) ps []) gs.
Definition runs (n : nat) : list ev := repeat Run n.

Definition o1 := knows [bob; carol; dave] [(bs "dev", [ident bob; ident me0])].
Definition D1 (p : PublicIdentity) : Prop := In p [bob; carol; dave].
Definition G1 (g : bytes) : Prop := g = bs "dev".

Lemma apart1 : apart D1 G1.
Proof.
  constructor.
  - intros p q Hp Hq. destruct Hp as [<-|[<-|[<-|[]]]], Hq as [<-|[<-|[<-|[]]]]; cbn; intros E; try discriminate; reflexivity.
  - intros p [<-|[<-|[<-|[]]]]; reflexivity.
  - intros p [<-|[<-|[<-|[]]]]; discriminate.
  - intros p [<-|[<-|[<-|[]]]]; discriminate.
  - intros p [<-|[<-|[<-|[]]]]; discriminate.
  - intros g ->. split; [discriminate|reflexivity].
Qed.
Lemma good1 : good D1 G1 o1.
Proof.
  split.
  - intros id p H. apply mget_In in H. destruct H as [H|[H|[H|[]]]]; inversion H; subst;
      (split; [reflexivity|split; [discriminate|unfold D1; cbn; auto]]).
  - intros g ms H. apply mget_In in H. destruct H as [H|[]]. inversion H; subst. reflexivity.
Qed.

(** Bob and the group write; text is typed in Bob's window and in the group's. *)
Definition es1 : list ev :=
  [Pm (ident bob) (bs "hi")] ++ runs 2 ++ [Rpc; Run; Gm (bs "dev") (ident bob) (bs "hello all")] ++ runs 2 ++
  [Rpc; Run; Look 1; Run; Typed (bs "how are you  "); Main; Run; Look 2; Run; Typed (bs "all well"); Main; Run].
Example typed_case : exists s, exec me0 (start me0 o1) es1 = Go s /\
  s_wins s = [console me0; contact_win bob (ident bob); group_win (bs "dev")] /\
  s_sent s = [(contact_win bob (ident bob), Private (ident bob) (bs "how are you") (Some 1%nat));
              (group_win (bs "dev"), ToGroup (bs "dev") (bs "all well") [ident bob] 2)] /\
  gently me0 (start me0 o1) es1 /\ calm me0 (start me0 o1) es1 /\
  arrived me0 (start me0 o1) es1 = [Said (ident bob) (bs "hi"); GroupSaid (bs "dev") (ident bob) (bs "hello all")] /\
  good D1 G1 o1 /\ apart D1 G1.
Proof.
  eexists. split; [vm_compute; reflexivity|]. split; [reflexivity|]. split; [reflexivity|].
  split; [trace|]. split; [trace|split; [vm_compute; reflexivity|split; [apply good1|apply apart1]]].
Qed.

(** Somebody who also calls himself bob wrote first: what is typed in Bob's window goes
    to him.  Everything else of the case is as it should be. *)
Definition o2 := knows [bob; bob2] [].
Definition es2 : list ev :=
  [Pm (ident bob2) (bs "hello")] ++ runs 2 ++ [Rpc; Run; Pm (ident bob) (bs "hi")] ++ runs 2 ++
  [Rpc; Run; Look 2; Run].
Theorem C69_imposter_refuted : exists me o es s p q text m,
  exec me (start me o) es = Go s /\ calm me (start me o) es /\ gently me (start me o) es /\
  (forall id x, mget (o_disk o) id = Some x -> ident x = id) /\
  nth_error (s_wins s) (s_active s) = Some (contact_win p (ident p)) /\ ident p <> ident q /\
  snd (action me (s_world s) (s_wins s) (s_active s) text) = Private (ident q) text m.
Proof.
  exists me0, o2, es2. eexists. exists bob, bob2, (bs "our secret"), (Some 1%nat).
  split; [vm_compute; reflexivity|].
  split. { trace. }
  split. { trace. }
  split. { intros id x H. apply mget_In in H. destruct H as [H|[H|[]]]; inversion H; subst; reflexivity. }
  split; [reflexivity|]. split; [discriminate|]. vm_compute. reflexivity.
Qed.
Print Assumptions C69_imposter_refuted.

(** A nick with a blank in it: what is typed in the window of "bob smith" goes to "bob". *)
Definition smith := human 5 (bs "bob smith").
Definition o3 := knows [bob; smith] [].
Theorem C69_space_refuted : exists me o es s p q text,
  exec me (start me o) es = Go s /\ calm me (start me o) es /\
  nth_error (s_wins s) (s_active s) = Some (contact_win p (ident p)) /\ nick p <> nick q /\ ident p <> ident q /\
  snd (fst (action me (s_world s) (s_wins s) (s_active s) text)) = true /\
  snd (action me (s_world s) (s_wins s) (s_active s) text) = Private (ident q) (bs "smith " ++ text) (Some 2%nat).
Proof.
  exists me0, o3, ([Pm (ident smith) (bs "hi")] ++ runs 2 ++ [Rpc; Run; Look 1; Run]).
  eexists. exists smith, bob, (bs "our secret").
  split; [vm_compute; reflexivity|].
  split. { trace. }
  split; [reflexivity|]. split; [discriminate|]. split; [discriminate|].
  split; vm_compute; reflexivity.
Qed.
Print Assumptions C69_space_refuted.

(** A contact who has the name of a group.  If his window is there first, the group's
    messages are shown in it; if the group's is, what is typed in his window is sent to
    nobody (the all zero identity) although it is echoed. *)
Definition devil := human 6 (bs "dev").
Definition o4 := knows [bob; devil] [(bs "dev", [ident bob; ident me0])].
Theorem C69_group_name_refuted : exists me o es1 s1 es2 s2 p f t text,
  exec me (start me o) es1 = Go s1 /\ gently me (start me o) es1 /\ f <> ident p /\
  In (Some (contact_win p (ident p)), GroupSaid (nick p) f t) (s_shown s1) /\
  exec me (start me o) es2 = Go s2 /\ calm me (start me o) es2 /\
  nth_error (s_wins s2) (s_active s2) = Some (contact_win p (ident p)) /\
  snd (action me (s_world s2) (s_wins s2) (s_active s2) text) = Private (zeros 32) text (Some 1%nat).
Proof.
  exists me0, o4, ([Pm (ident devil) (bs "hi")] ++ runs 2 ++ [Rpc; Run; Gm (bs "dev") (ident bob) (bs "private to dev"); Rpc; Run]).
  eexists. exists ([Gm (bs "dev") (ident bob) (bs "private to dev")] ++ runs 2 ++ [Rpc; Run; Pm (ident devil) (bs "hi")] ++ runs 2 ++ [Rpc; Run; Look 2; Run]).
  eexists. exists devil, (ident bob), (bs "private to dev"), (bs "hello").
  split; [vm_compute; reflexivity|]. split; [trace|]. split; [discriminate|].
  split; [cbn; tauto|]. split; [vm_compute; reflexivity|].
  split. { trace. }
  split; [reflexivity|]. vm_compute. reflexivity.
Qed.
Print Assumptions C69_group_name_refuted.

(** A window is closed while a message is on its way to the screen: Carol's message is
    shown in Dave's window, and Dave's in none. *)
Definition open3 : list ev :=
  [Pm (ident bob) (bs "hi")] ++ runs 2 ++ [Rpc; Run; Pm (ident carol) (bs "hi")] ++ runs 2 ++
  [Rpc; Run; Pm (ident dave) (bs "hi")] ++ runs 2 ++ [Rpc; Run; Look 1; Run].
Theorem C69_close_refuted : exists me o es s p q t,
  exec me (start me o) es = Go s /\ good D1 G1 o /\ apart D1 G1 /\ ident p <> ident q /\
  In (Some (contact_win q (ident q)), Said (ident p) t) (s_shown s) /\
  In (None, Said (ident q) t) (s_shown s).
Proof.
  exists me0, o1, (open3 ++ [Pm (ident carol) (bs "psst"); Rpc; Pm (ident dave) (bs "psst"); Rpc; Close; Run; Run; Run]).
  eexists. exists carol, dave, (bs "psst").
  split; [vm_compute; reflexivity|]. split; [apply good1|]. split; [apply apart1|]. split; [discriminate|].
  split; cbn; tauto.
Qed.
Print Assumptions C69_close_refuted.

(** The last window is closed while anything waits to be drawn (here the clock of the
    status bar): the client stops. *)
Theorem C69_dead_refuted : exists me o es, good D1 G1 o /\ apart D1 G1 /\
  exec me (start me o) (es ++ [Tick; Close; Run]) = Dead /\ exec me (start me o) (es ++ [Close; Run; Tick; Run]) <> Dead.
Proof.
  exists me0, o1, ([Pm (ident bob) (bs "hi")] ++ runs 2 ++ [Rpc; Run; Look 1; Run]).
  split; [apply good1|]. split; [apply apart1|]. split; [vm_compute; reflexivity|vm_compute; discriminate].
Qed.
Print Assumptions C69_dead_refuted.

(** Restoring a window of the second of two bobs opens one of the first. *)
Theorem C69_restore_refuted : exists me o es s es' s' p q,
  exec me (start me o) es = Go s /\ s_wins s = [console me; contact_win p (ident p)] /\
  filter command es' = restore_commands (saved s) /\ exec me s es' = Go s' /\
  s_wins s' = [console me; contact_win q (ident q)] /\ ident p <> ident q.
Proof.
  exists me0, o2, ([Pm (ident bob2) (bs "hello")] ++ runs 2 ++ [Rpc; Run]). eexists.
  exists [CloseAll; Run; Query (bs "bob"); Main]. eexists. exists bob2, bob.
  split; [vm_compute; reflexivity|]. split; [reflexivity|]. split; [reflexivity|].
  split; [vm_compute; reflexivity|]. split; [reflexivity|discriminate].
Qed.
Print Assumptions C69_restore_refuted.

(** What is saved comes back. *)
Example restore_case : exists s es', exec me0 (start me0 o1) es1 = Go s /\
  Forall (found_again me0 (s_world s)) [contact_win bob (ident bob); group_win (bs "dev")] /\
  filter command es' = restore_commands (saved s) /\
  match exec me0 s es' with Go s' => s_wins s' = s_wins s | _ => False end.
Proof.
  eexists. exists [CloseAll; Run; Query (bs "bob"); Main; Run; Query (bs "dev"); Tick; Main; Look 0; Run].
  split; [vm_compute; reflexivity|]. split; [|split; [reflexivity|vm_compute; reflexivity]].
  constructor; [left; exists bob, bob|constructor; [right; exists (bs "dev"), [ident bob; ident me0]|constructor]].
  - repeat split; try reflexivity; discriminate.
  - repeat split; try reflexivity; discriminate.
Qed.

Example imposter_case : exists ws, nth_error ws 1 = Some (contact_win bob2 (ident bob2)) /\
  nth_error ws 2 = Some (contact_win bob (ident bob)) /\
  action me0 o2 ws 2 (bs "our secret") = (ws, false, Private (ident bob2) (bs "our secret") (Some 1%nat)) /\
  action me0 o2 ws 2 (bs "/me waves") = (ws, false, Private (ident bob) (bs "waves") None).
Proof. exists [console me0; contact_win bob2 (ident bob2); contact_win bob (ident bob)]. repeat split. Qed.
Example blank_case : let ws := [console me0; contact_win bob (ident bob)] in
  action me0 o2 ws 1 (bs "  ") = (ws, false, Private (ident bob) (bs "bob") (Some 1%nat)).
Proof. reflexivity. Qed.
