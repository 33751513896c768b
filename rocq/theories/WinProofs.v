(** Proofs about the conversation windows. *)
From Verif Require Import Base XdrModel RpcModel AddrModel IniModel HexModel WinModel.
From Coq Require Import Lia.
Local Open Scope N_scope.

(** ** Strings *)

Lemma has_prefix_app : forall p s, has_prefix p (p ++ s) = true.
Proof. induction p; intros; cbn; [reflexivity|]. rewrite N.eqb_refl. cbn. auto. Qed.

Lemma has_prefix_inv : forall p s, has_prefix p s = true -> exists r, s = p ++ r.
Proof.
  induction p; intros s H; [exists s; reflexivity|].
  destruct s as [|b s]; [discriminate|]. cbn in H. apply andb_prop in H as [E H].
  apply N.eqb_eq in E. subst. destruct (IHp _ H) as (r & ->). exists r. reflexivity.
Qed.

Lemma trim_prefix_app : forall p s, trim_prefix (p ++ s) p = s.
Proof.
  intros. unfold trim_prefix. rewrite has_prefix_app.
  induction p; cbn; auto.
Qed.

Definition no_blank (n : bytes) : bool := forallb (fun c => negb (is_space c)) n.

Lemma is_space_32 : is_space 32 = true. Proof. reflexivity. Qed.

Lemma split_word : forall n r, no_blank n = true -> split_spaces (n ++ 32 :: r) = n :: split_spaces r.
Proof.
  induction n; intros r H; cbn; [reflexivity|].
  cbn in H. apply andb_prop in H as [H1 H2]. rewrite (IHn r H2).
  destruct (a =? 32) eqn:E; auto. apply N.eqb_eq in E. subst. discriminate.
Qed.

Lemma split_some : forall s, exists w ws, split_spaces s = w :: ws.
Proof.
  induction s; cbn; [eauto|]. destruct (a =? 32); eauto.
  destruct IHs as (w & ws & ->). eauto.
Qed.

Lemma trim_left_all : forall s, forallb is_space s = true -> trim_left s = [].
Proof. induction s; cbn; intros; auto. apply andb_prop in H as [-> ?]. auto. Qed.

Lemma trim_left_app : forall s r, forallb is_space s = true -> trim_left (s ++ r) = trim_left r.
Proof. induction s; cbn; intros; auto. apply andb_prop in H as [-> ?]. auto. Qed.

Lemma forallb_rev : forall {A} (f : A -> bool) l, forallb f (rev l) = forallb f l.
Proof.
  induction l; cbn; auto. rewrite forallb_app, IHl. cbn.
  destruct (f a); cbn; [rewrite Bool.andb_true_r|rewrite Bool.andb_false_r]; auto.
Qed.

(** Trimming: white space, then something that starts and ends with something else,
    then white space. *)
Lemma trim_mid : forall a s t z b, forallb is_space a = true -> forallb is_space b = true ->
  is_space s = false -> is_space z = false ->
  trim (a ++ (s :: t ++ [z]) ++ b) = s :: t ++ [z].
Proof.
  intros. unfold trim. rewrite trim_left_app by auto. cbn [app trim_left]. rewrite H1.
  replace (s :: (t ++ [z]) ++ b) with ((s :: t ++ [z]) ++ b) by reflexivity.
  rewrite rev_app_distr, trim_left_app by (rewrite forallb_rev; auto).
  cbn [rev]. rewrite rev_app_distr. cbn [rev app trim_left]. rewrite H2.
  cbn. rewrite rev_app_distr, rev_involutive. reflexivity.
Qed.

Lemma trim_blanks_end : forall t z, is_space z = false -> trim_blanks (t ++ [z]) = t ++ [z].
Proof.
  intros. unfold trim_blanks. rewrite rev_app_distr. cbn.
  destruct (z =? 32) eqn:E; [apply N.eqb_eq in E; subst; discriminate|].
  cbn. rewrite rev_involutive. reflexivity.
Qed.

Lemma head_of : forall n : bytes, n <> [] -> exists c r, n = c :: r.
Proof. destruct n; intros; [congruence|eauto]. Qed.

(** The text taken out of a command word, blank, name, blank, text. *)
Lemma text_out : forall n t z sp, n <> [] -> no_blank n = true -> is_space z = false -> forallb is_space sp = true ->
  trim_blanks (trim_prefix (trim (32 :: n ++ 32 :: (t ++ [z]) ++ sp)) (n ++ bs " ")) = t ++ [z].
Proof.
  intros n t z sp Hn Hb Hz Hs.
  destruct (head_of n Hn) as (c & r & ->).
  assert (Hc : is_space c = false).
  { cbn in Hb. apply andb_prop in Hb as [Hb _]. destruct (is_space c); auto. }
  replace (32 :: (c :: r) ++ 32 :: (t ++ [z]) ++ sp)
    with ([32] ++ (c :: (r ++ 32 :: t) ++ [z]) ++ sp).
  2:{ cbn. repeat rewrite <- app_assoc. cbn. repeat rewrite <- app_assoc. reflexivity. }
  rewrite trim_mid by auto.
  replace (c :: (r ++ 32 :: t) ++ [z]) with (((c :: r) ++ bs " ") ++ (t ++ [z])).
  2:{ cbn. repeat rewrite <- app_assoc. reflexivity. }
  rewrite trim_prefix_app. apply trim_blanks_end; auto.
Qed.

(** ** Finding windows *)

Lemma first_some : forall f ws k, first f ws = Some k -> exists w, nth_error ws k = Some w /\ f w = true.
Proof.
  induction ws; cbn; intros; [discriminate|].
  destruct (f a) eqn:E. { inversion H; subst. cbn. eauto. }
  destruct (first f ws) eqn:F; [|discriminate]. inversion H; subst.
  destruct (IHws _ eq_refl) as (w & ? & ?). cbn. eauto.
Qed.

Lemma first_least : forall f ws k, first f ws = Some k ->
  forall i w, (i < k)%nat -> nth_error ws i = Some w -> f w = false.
Proof.
  induction ws; cbn; intros; [discriminate|].
  destruct (f a) eqn:E. { inversion H; subst. lia. }
  destruct (first f ws) eqn:F; [|discriminate]. inversion H; subst.
  destruct i; cbn in H1; [inversion H1; subst; auto|]. eapply IHws; eauto. lia.
Qed.

Lemma first_none : forall f ws, first f ws = None -> forall w, In w ws -> f w = false.
Proof.
  induction ws; cbn; intros; [tauto|].
  destruct (f a) eqn:E; [discriminate|].
  destruct (first f ws) eqn:F; [discriminate|].
  destruct H0; subst; auto.
Qed.

Lemma first_is : forall f ws k w, nth_error ws k = Some w -> f w = true ->
  (forall i v, nth_error ws i = Some v -> f v = true -> i = k) -> first f ws = Some k.
Proof.
  intros. destruct (first f ws) as [j|] eqn:F.
  - destruct (first_some _ _ _ F) as (v & ? & ?). f_equal. eauto.
  - apply nth_error_In in H. rewrite (first_none _ _ F _ H) in H0. discriminate.
Qed.

(** ** What holds of all windows *)

Section Inv.
Variable me : PublicIdentity.
Variable D : PublicIdentity -> Prop.   (* who may ever be stored *)
Variable G : bytes -> Prop.            (* which groups there may ever be *)

Definition good (o : world) : Prop :=
  (forall id p, mget (o_disk o) id = Some p -> ident p = id /\ id <> zeros 32 /\ D p) /\
  (forall g ms, mget (o_groups o) g = Some ms -> G g).

Definition kind (w : win) : Prop :=
  w = console me \/ (exists g, G g /\ w = group_win g) \/ (exists p, D p /\ ident p <> zeros 32 /\ w = contact_win p (ident p)).

Record winv (ws : list win) : Prop := {
  v_first : nth_error ws 0 = Some (console me);
  v_kind : forall i w, nth_error ws i = Some w -> kind w;
  v_ident : forall i j v w, nth_error ws i = Some v -> nth_error ws j = Some w ->
    w_group v = false -> w_group w = false -> ident (w_pub v) = ident (w_pub w) -> i = j;
  v_group : forall i j v w, nth_error ws i = Some v -> nth_error ws j = Some w ->
    w_group v = true -> w_group w = true -> w_nick v = w_nick w -> i = j
}.

Lemma nth_app_new : forall {A} (ws : list A) n i w, nth_error (ws ++ [n]) i = Some w ->
  nth_error ws i = Some w \/ (i = length ws /\ w = n).
Proof.
  intros. destruct (Nat.lt_ge_cases i (length ws)).
  - rewrite nth_error_app1 in H; auto.
  - rewrite nth_error_app2 in H; auto. destruct (i - length ws)%nat as [|m] eqn:E; cbn in H.
    + inversion H; subst. right. split; [lia|auto].
    + destruct m; discriminate.
Qed.

Lemma nth_lt : forall {A} (l : list A) i x, nth_error l i = Some x -> (i < length l)%nat.
Proof. intros. apply nth_error_Some. congruence. Qed.

Lemma get_winv : forall o ws id ws' k new, good o -> winv ws -> get_conversation o ws id = Some (ws', k, new) ->
  winv ws' /\ (exists ext, ws' = ws ++ ext) /\ (new = true -> k = length ws) /\
  exists w, nth_error ws' k = Some w /\ ident (w_pub w) = id /\ w_group w = false.
Proof.
  intros o ws id ws' k new [Hd _] W H. unfold get_conversation in H.
  destruct (mget (o_disk o) id) as [p|] eqn:M; [|discriminate].
  destruct (Hd _ _ M) as (Hi & Hz & HD). unfold place in H.
  destruct (first _ ws) as [k'|] eqn:F; inversion H; subst; clear H.
  - split; [auto|split; [exists []; rewrite app_nil_r; auto|split; [discriminate|]]].
    destruct (first_some _ _ _ F) as (w & Hw & E). cbv beta in E. apply (proj1 (eqb_eq _ _)) in E.
    exists w. split; [auto|split; [auto|]].
    destruct (v_kind _ W _ _ Hw) as [->|[(g & _ & ->)|(q & _ & _ & ->)]]; auto.
    exfalso. apply Hz. rewrite <- E. reflexivity.
  - assert (N : forall w, In w ws -> ident (w_pub w) <> ident p).
    { intros w Hw E. pose proof (first_none _ _ F w Hw) as X. cbn in X. rewrite E, eqb_refl in X. discriminate. }
    split; [|split; [eauto|split; [auto|]]].
    + constructor.
      * pose proof (v_first _ W) as X. rewrite nth_error_app1; [auto|]. eapply nth_lt; eauto.
      * intros i w Hw. destruct (nth_app_new _ _ _ _ Hw) as [X|[_ ->]]; [eapply v_kind; eauto|].
        right. right. exists p. auto.
      * intros i j v w Hv Hw Gv Gw E.
        destruct (nth_app_new _ _ _ _ Hv) as [X|[-> ->]], (nth_app_new _ _ _ _ Hw) as [Y|[-> ->]]; auto.
        -- eapply (v_ident _ W i j v w); auto.
        -- exfalso. apply (N v); [eapply nth_error_In; eauto|auto].
        -- exfalso. apply (N w); [eapply nth_error_In; eauto|auto].
      * intros i j v w Hv Hw Gv Gw E.
        destruct (nth_app_new _ _ _ _ Hv) as [X|[-> ->]], (nth_app_new _ _ _ _ Hw) as [Y|[-> ->]]; auto; try discriminate.
        eapply (v_group _ W i j v w); auto.
    + exists (contact_win p (ident p)). rewrite nth_error_app2, Nat.sub_diag by lia. cbn. auto.
Qed.

Lemma group_winv : forall o ws g ws' k new, good o -> winv ws -> group_conversation o ws g = Some (ws', k, new) ->
  winv ws' /\ (exists ext, ws' = ws ++ ext) /\ (new = true -> k = length ws) /\
  exists w, nth_error ws' k = Some w /\ nick (w_pub w) = g.
Proof.
  intros o ws g ws' k new [_ Hg] W H. unfold group_conversation in H.
  destruct (mget (o_groups o) g) as [ms|] eqn:M; [|discriminate].
  pose proof (Hg _ _ M) as HG. unfold place in H.
  destruct (first _ ws) as [k'|] eqn:F; inversion H; subst; clear H.
  - split; [auto|split; [exists []; rewrite app_nil_r; auto|split; [discriminate|]]].
    destruct (first_some _ _ _ F) as (w & Hw & E). cbv beta in E. apply (proj1 (eqb_eq _ _)) in E.
    exists w. auto.
  - assert (N : forall w, In w ws -> nick (w_pub w) <> g).
    { intros w Hw E. pose proof (first_none _ _ F w Hw) as X. cbn in X. rewrite E, eqb_refl in X. discriminate. }
    split; [|split; [eauto|split; [auto|]]].
    + constructor.
      * pose proof (v_first _ W) as X. rewrite nth_error_app1; [auto|]. eapply nth_lt; eauto.
      * intros i w Hw. destruct (nth_app_new _ _ _ _ Hw) as [X|[_ ->]]; [eapply v_kind; eauto|].
        right. left. exists g. auto.
      * intros i j v w Hv Hw Gv Gw E.
        destruct (nth_app_new _ _ _ _ Hv) as [X|[-> ->]], (nth_app_new _ _ _ _ Hw) as [Y|[-> ->]]; auto; try discriminate.
        eapply (v_ident _ W i j v w); auto.
      * intros i j v w Hv Hw Gv Gw E.
        destruct (nth_app_new _ _ _ _ Hv) as [X|[-> ->]], (nth_app_new _ _ _ _ Hw) as [Y|[-> ->]]; auto.
        -- eapply (v_group _ W i j v w); auto.
        -- exfalso. apply (N v); [eapply nth_error_In; eauto|].
           destruct (v_kind _ W _ _ X) as [->|[(g' & _ & ->)|(q & _ & _ & ->)]]; try discriminate. exact E.
        -- exfalso. apply (N w); [eapply nth_error_In; eauto|].
           destruct (v_kind _ W _ _ Y) as [->|[(g' & _ & ->)|(q & _ & _ & ->)]]; try discriminate. symmetry; exact E.
    + exists (group_win g). rewrite nth_error_app2, Nat.sub_diag by lia. cbn. auto.
Qed.

Lemma book_winv : forall o ws n ws' k new, good o -> winv ws -> book_conversation me o ws n = Some (ws', k, new) ->
  winv ws' /\ (exists ext, ws' = ws ++ ext) /\ (new = true -> k = length ws).
Proof.
  intros o ws n ws' k new Ho W H. unfold book_conversation in H.
  destruct (eqb n (nick me)); [discriminate|]. destruct (find_nick _ _) as [p|]; [|discriminate].
  destruct (get_winv _ _ _ _ _ _ Ho W H) as (A & B & C & _). auto.
Qed.

Lemma gc_winv : forall o ws g m ws' new a, good o -> winv ws -> gc_message me o ws g m = (ws', new, a) ->
  winv ws' /\ (exists ext, ws' = ws ++ ext).
Proof.
  intros o ws g m ws' new a Ho W H. unfold gc_message in H.
  destruct (group_conversation o ws g) as [[[ws1 k] n1]|] eqn:E.
  - destruct (group_winv _ _ _ _ _ _ Ho W E) as (A & B & _).
    destruct (mget _ _); inversion H; subst; auto.
  - inversion H; subst. split; auto. exists []. rewrite app_nil_r; auto.
Qed.

Lemma action_winv : forall o ws active text ws' new a, good o -> winv ws ->
  action me o ws active text = (ws', new, a) -> winv ws' /\ (exists ext, ws' = ws ++ ext).
Proof.
  intros o ws active text ws' new a Ho W H.
  assert (Triv : forall b x, (ws, b, x) = (ws', new, a) -> winv ws' /\ (exists ext, ws' = ws ++ ext)).
  { intros b x X. inversion X; subst. split; auto. exists []. rewrite app_nil_r; auto. }
  unfold action in H. destruct text; [eauto|].
  destruct (as_command _ _ _) as [cmd|]; [|eauto].
  destruct (split_spaces cmd) as [|a0 [|a1 rest]] eqn:Sp; [eauto|eauto|].
  destruct (eqb a0 (bs "/me")).
  { unfold do_me in H. destruct (Nat.eqb active 0); [eauto|].
    destruct (nth_error ws active); [|eauto]. destruct (w_group _); [|eauto].
    eapply gc_winv; eauto. }
  destruct (eqb a0 (bs "/m") || eqb a0 (bs "/msg"))%bool.
  { destruct rest; [eauto|]. unfold do_m in H.
    destruct (first _ ws). { destruct (nth_error ws _); eauto. }
    destruct (book_conversation me o ws a1) as [[[ws1 k] n1]|] eqn:E; [|eauto].
    destruct (book_winv _ _ _ _ _ _ Ho W E) as (A & B & _).
    destruct (nth_error ws1 k); inversion H; subst; auto. }
  destruct (eqb a0 (bs "/gc")); [|eauto].
  unfold do_gc in H. destruct rest as [|g rest]; [eauto|].
  destruct (_ || _)%bool; [|eauto]. destruct (Nat.ltb _ _); [eauto|].
  eapply gc_winv; eauto.
Qed.

Lemma cut_winv : forall ws i, winv ws -> i <> O -> winv (firstn i ws ++ skipn (S i) ws).
Proof.
  intros ws i W Hi.
  assert (X : forall j w, nth_error (firstn i ws ++ skipn (S i) ws) j = Some w ->
    nth_error ws (if Nat.ltb j i then j else S j) = Some w).
  { clear W Hi. revert i. induction ws; intros.
    - rewrite firstn_nil, skipn_nil in H. destruct j; discriminate.
    - destruct i; cbn in *.
      + exact H.
      + destruct j; cbn in *; [auto|]. apply IHws in H. destruct (match i with O => _ | S _ => _ end); exact H. }
  constructor.
  - destruct ws as [|w ws]; [destruct W; discriminate|]. destruct i; [congruence|].
    cbn. exact (v_first _ W).
  - intros j w H. eapply v_kind; eauto.
  - intros j k v w Hv Hw Gv Gw E.
    pose proof (v_ident _ W _ _ _ _ (X _ _ Hv) (X _ _ Hw) Gv Gw E) as Y.
    destruct (Nat.ltb_spec j i), (Nat.ltb_spec k i); lia.
  - intros j k v w Hv Hw Gv Gw E.
    pose proof (v_group _ W _ _ _ _ (X _ _ Hv) (X _ _ Hw) Gv Gw E) as Y.
    destruct (Nat.ltb_spec j i), (Nat.ltb_spec k i); lia.
Qed.

Lemma first_winv : forall ws, winv ws -> winv (firstn 1 ws).
Proof.
  intros ws W. destruct ws as [|w ws]; [auto|]. pose proof (v_first _ W) as F. cbn in F. inversion F; subst.
  cbn. constructor.
  - reflexivity.
  - intros [|[|]] w H; inversion H; subst. left. reflexivity.
  - intros [|[|]] [|[|]]; intros; try discriminate; auto.
  - intros [|[|]] [|[|]]; intros; try discriminate; auto.
Qed.

Lemma start_winv : winv [console me].
Proof.
  constructor.
  - reflexivity.
  - intros [|[|]] w H; inversion H; subst. left. reflexivity.
  - intros [|[|]] [|[|]]; intros; try discriminate; auto.
  - intros [|[|]] [|[|]]; intros; try discriminate; auto.
Qed.

Lemma opened_wins : forall s r, s_wins (opened s r) = fst (fst r).
Proof. intros s [[ws k] n]. reflexivity. Qed.

Lemma run_job_wins : forall s j s', run_job s j = Go s' -> s_wins s' = s_wins s /\ s_world s' = s_world s.
Proof.
  intros s [a l|k|] s' H; cbn in H.
  - unfold run_print in H. destruct (Nat.ltb _ _); inversion H; subst; auto.
  - unfold run_focus in H. destruct (negb _ && _)%bool; [inversion H; subst; auto|].
    destruct (Nat.ltb _ _); inversion H; subst; auto.
  - unfold run_status in H. destruct (Nat.ltb _ _); inversion H; subst; auto.
Qed.

Definition ev_good (e : ev) : Prop := match e with World o => good o | _ => True end.

(** A step keeps the windows or adds to them, unless it closes some. *)
Definition closing (e : ev) : Prop := match e with Close | CloseAll => True | _ => False end.

Lemma step_winv : forall s e s', good (s_world s) -> ev_good e -> winv (s_wins s) -> step me s e = Go s' ->
  winv (s_wins s') /\ good (s_world s') /\ (~ closing e -> exists ext, s_wins s' = s_wins s ++ ext).
Proof.
  intros s e s' Ho He W H.
  assert (Same : forall t, s_wins t = s_wins s -> s_world t = s_world s -> Go t = Go s' ->
    winv (s_wins s') /\ good (s_world s') /\ (~ closing e -> exists ext, s_wins s' = s_wins s ++ ext)).
  { intros t A B X. inversion X; subst. rewrite A, B. split; [auto|split; [auto|]].
    intros _. exists []. rewrite app_nil_r. auto. }
  destruct e; cbn [step] in H.
  - inversion H; subst. cbn in *. split; [auto|split; [auto|]]. intros _. exists []. rewrite app_nil_r; auto.
  - destruct (s_rpc s); [discriminate|].
    destruct (get_conversation _ _ _) as [[[ws k] n]|] eqn:E; [|eauto].
    destruct (get_winv _ _ _ _ _ _ Ho W E) as (A & B & _).
    inversion H; subst. cbn. auto.
  - destruct (s_rpc s); [discriminate|]. destruct (mget _ g); [|eauto]. destruct (mem _ _); [|eauto].
    destruct (group_conversation _ _ _) as [[[ws k] n]|] eqn:E; [|eauto].
    destruct (group_winv _ _ _ _ _ _ Ho W E) as (A & B & _).
    inversion H; subst. cbn. auto.
  - destruct (s_rpc s); [|discriminate]. eapply Same; [..|exact H]; reflexivity.
  - destruct (s_main s); [|discriminate]. eapply Same; [..|exact H]; reflexivity.
  - eapply Same; [..|exact H]; reflexivity.
  - eapply Same; [..|exact H]; reflexivity.
  - destruct (s_queue s); [discriminate|]. destruct (run_job_wins _ _ _ H) as (A & B). cbn in A, B.
    eapply Same; [exact A|exact B|reflexivity].
  - eapply Same; [..|exact H]; reflexivity.
  - destruct (s_main s); [discriminate|].
    destruct (action _ _ _ _ _) as [[ws n] a] eqn:E.
    destruct (action_winv _ _ _ _ _ _ _ Ho W E) as (A & B).
    destruct a; inversion H; subst; cbn; auto.
  - destruct (s_main s); [discriminate|]. destruct (first _ _); [eapply Same; [..|exact H]; reflexivity|].
    destruct (group_conversation _ _ _) as [[[ws k] x]|] eqn:E.
    { destruct (group_winv _ _ _ _ _ _ Ho W E) as (A & B & _). inversion H; subst. cbn. auto. }
    destruct (book_conversation _ _ _ _) as [[[ws k] x]|] eqn:E2.
    { destruct (book_winv _ _ _ _ _ _ Ho W E2) as (A & B & _). inversion H; subst. cbn. auto. }
    eapply Same; [..|exact H]; reflexivity.
  - destruct (s_main s); [discriminate|]. destruct (Nat.eqb (s_active s) 0) eqn:E0; [cbn in H; eauto|].
    cbn [orb] in H. destruct (negb _); [eauto|]. inversion H; subst. cbn.
    split; [apply cut_winv; auto; apply Nat.eqb_neq; auto|]. split; [auto|]. intros X. exfalso. apply X. exact I.
  - destruct (s_main s); [discriminate|]. inversion H; subst. cbn [enqueue set_queue s_wins set_wins s_world].
    split; [apply first_winv; auto|]. split; [auto|]. intros X. exfalso. apply X. exact I.
Qed.

Lemma exec_winv : forall es s s', good (s_world s) -> Forall ev_good es -> winv (s_wins s) -> exec me s es = Go s' ->
  winv (s_wins s') /\ good (s_world s').
Proof.
  induction es; cbn; intros s s' Ho He W H.
  - inversion H; subst; auto.
  - inversion He; subst. destruct (step me s a) eqn:E; try discriminate.
    destruct (step_winv _ _ _ Ho H2 W E) as (A & B & _). eapply IHes; eauto.
Qed.

End Inv.

(** ** Where messages are shown *)

(** The messages among lines. *)
Definition is_msg (l : line) : bool := match l with Said _ _ | GroupSaid _ _ _ => true | _ => false end.
(** The messages that are on their way to the screen. *)
Definition job_msgs (j : job) : list line := match j with Print _ l => if is_msg l then [l] else [] | _ => [] end.
Definition waiting (s : st) : list line :=
  flat_map job_msgs (s_queue s) ++ match s_rpc s with Some j => job_msgs j | None => [] end.

(** Windows are closed only while no message is on its way to the screen. *)
Fixpoint gently (me : PublicIdentity) (s : st) (es : list ev) : Prop :=
  match es with
  | [] => True
  | e :: r => (closing e -> waiting s = []) /\
              match step me s e with Go s' => gently me s' r | _ => True end
  end.

(** The messages that arrived from somebody known, or in a group from a member. *)
Definition arrives (s : st) (e : ev) : list line :=
  match e with
  | Pm f t => match mget (o_disk (s_world s)) f with Some _ => [Said f t] | None => [] end
  | Gm g f t => match mget (o_groups (s_world s)) g with
                | Some ms => if mem f ms then [GroupSaid g f t] else []
                | None => []
                end
  | _ => []
  end.
Fixpoint arrived (me : PublicIdentity) (s : st) (es : list ev) : list line :=
  match es with
  | [] => []
  | e :: r => arrives s e ++ match step me s e with Go s' => arrived me s' r | _ => [] end
  end.

Section Shown.
Variable me : PublicIdentity.
Variable D : PublicIdentity -> Prop.
Variable G : bytes -> Prop.

Definition ok_line (w : option win) (l : line) : Prop :=
  match l with
  | Said f _ => exists v, w = Some v /\ ident (w_pub v) = f /\ w_group v = false
  | GroupSaid g _ _ => exists v, w = Some v /\ nick (w_pub v) = g /\ kind me D G v
  | _ => True
  end.
Definition ok_job (ws : list win) (j : job) : Prop :=
  match j with
  | Print (Some k) l => ok_line (nth_error ws k) l
  | Print None l => is_msg l = false
  | _ => True
  end.

Record shows (s : st) : Prop := {
  h_queue : Forall (ok_job (s_wins s)) (s_queue s);
  h_rpc : forall j, s_rpc s = Some j -> ok_job (s_wins s) j;
  h_main : forall j, s_main s = Some j -> job_msgs j = [];
  h_shown : forall w l, In (w, l) (s_shown s) -> ok_line w l
}.

Lemma ok_line_none : forall l, ok_line None l -> is_msg l = false.
Proof. intros [] H; cbn in *; auto; destruct H as (? & ? & _); discriminate. Qed.

Lemma ok_job_grow : forall ws ext j, ok_job ws j -> ok_job (ws ++ ext) j.
Proof.
  intros ws ext [[k|] l|k|] H; cbn in *; auto.
  destruct (nth_error ws k) eqn:E.
  - rewrite nth_error_app1 by (eapply nth_lt; eauto). rewrite E. auto.
  - apply ok_line_none in H. destruct l; cbn; auto; discriminate.
Qed.

Lemma quiet_ok : forall ws j, job_msgs j = [] -> ok_job ws j.
Proof. intros ws [[k|] l|k|] H; cbn in *; auto; destruct l; cbn in *; auto; discriminate. Qed.

Lemma quiet_all : forall ws q, flat_map job_msgs q = [] -> Forall (ok_job ws) q.
Proof.
  induction q; cbn; intros; constructor.
  - apply quiet_ok. apply app_eq_nil in H. tauto.
  - apply IHq. apply app_eq_nil in H. tauto.
Qed.

Lemma notices_quiet : forall k n, flat_map job_msgs (notices k n) = [].
Proof. intros k []; reflexivity. Qed.

(** One step: what is shown stays right, and no message is lost, doubled or overtaken. *)
Lemma step_shows : forall s e s', good D G (s_world s) -> ev_good D G e -> winv me D G (s_wins s) -> shows s ->
  (closing e -> waiting s = []) -> step me s e = Go s' -> shows s'.
Proof.
  intros s e s' Ho He W Sh Q H.
  assert (Unch : Go s = Go s' -> shows s') by (intros X; inversion X; subst; exact Sh).
  destruct Sh as [Hq Hr Hm Hs].
  destruct (step_winv me D G _ _ _ Ho He W H) as (W' & Ho' & Grow).
  assert (Keep : forall ext, Forall (ok_job (s_wins s ++ ext)) (s_queue s)).
  { intros. eapply Forall_impl; [|exact Hq]. intros; apply ok_job_grow; auto. }
  assert (Quiet : forall ws q, flat_map job_msgs q = [] -> Forall (ok_job ws) q) by (apply quiet_all).
  destruct e; cbn [step] in H.
  - inversion H; subst. constructor; cbn; auto.
  - destruct (s_rpc s) eqn:R; [discriminate|].
    destruct (get_conversation _ _ _) as [[[ws k] n]|] eqn:E; [|exact (Unch H)].
    destruct (get_winv me D G _ _ _ _ _ _ Ho W E) as (A & (ext & ->) & _ & w & Hw & Hi & Hg).
    inversion H; subst. constructor; cbn.
    + apply Forall_app. split; [auto|apply Quiet, notices_quiet].
    + intros j Hj. inversion Hj; subst. cbn. eauto.
    + auto.
    + auto.
  - destruct (s_rpc s) eqn:R; [discriminate|].
    destruct (mget _ g); [|exact (Unch H)].
    destruct (mem _ _); [|exact (Unch H)].
    destruct (group_conversation _ _ _) as [[[ws k] n]|] eqn:E; [|exact (Unch H)].
    destruct (group_winv me D G _ _ _ _ _ _ Ho W E) as (A & (ext & ->) & _ & w & Hw & Hn).
    inversion H; subst. constructor; cbn.
    + apply Forall_app. split; [auto|apply Quiet, notices_quiet].
    + intros j Hj. inversion Hj; subst. cbn. exists w. split; [auto|split; [auto|]]. eapply v_kind; eauto.
    + auto.
    + auto.
  - destruct (s_rpc s) eqn:R; [|discriminate]. inversion H; subst. constructor; cbn; auto.
    + apply Forall_app. split; auto.
    + discriminate.
  - destruct (s_main s) eqn:R; [|discriminate]. inversion H; subst. constructor; cbn; auto.
    + apply Forall_app. split; [auto|]. constructor; auto. apply quiet_ok. auto.
    + discriminate.
  - inversion H; subst. constructor; cbn; auto. apply Forall_app. split; [auto|]. apply Quiet. reflexivity.
  - inversion H; subst. constructor; cbn; auto. apply Forall_app. split; [auto|]. apply Quiet. reflexivity.
  - destruct (s_queue s) as [|j q] eqn:Eq; [discriminate|]. inversion Hq; subst.
    destruct j as [a l|k|]; cbn [run_job] in H.
    + unfold run_print in H. destruct (Nat.ltb _ _); [|discriminate]. inversion H; subst.
      constructor; cbn; auto. intros w l' Hin. apply in_app_iff in Hin as [Hin|[Hin|[]]]; [eauto|].
      inversion Hin; subst. destruct a as [k|]; cbn in H2; [exact H2|].
      destruct l'; try discriminate; exact I.
    + unfold run_focus in H. destruct (negb _ && _)%bool; [inversion H; subst; constructor; cbn; auto|].
      destruct (Nat.ltb _ _); inversion H; subst; constructor; cbn; auto.
      apply Forall_app. split; [auto|]. apply Quiet. reflexivity.
    + unfold run_status in H. destruct (Nat.ltb _ _); [|discriminate]. inversion H; subst.
      constructor; cbn; auto.
  - inversion H; subst. constructor; cbn; auto. apply Forall_app. split; [auto|]. apply Quiet. reflexivity.
  - destruct (s_main s); [discriminate|].
    destruct (action _ _ _ _ _) as [[ws n] a] eqn:E.
    destruct (action_winv me D G _ _ _ _ _ _ _ Ho W E) as (A & (ext & ->)).
    assert (Y : forall nn, Forall (ok_job (s_wins s ++ ext)) (s_queue s ++ notices nn n)).
    { intros. apply Forall_app. split; [auto|apply Quiet, notices_quiet]. }
    assert (Z : forall j, s_rpc s = Some j -> ok_job (s_wins s ++ ext) j).
    { intros. apply ok_job_grow. auto. }
    destruct a; inversion H; subst; constructor; cbn; auto;
      intros j Hj; inversion Hj; subst; reflexivity.
  - destruct (s_main s) eqn:Mn; [discriminate|]. destruct (first _ _).
    { inversion H; subst. constructor; cbn; auto; [|congruence]. apply Forall_app; split; [auto|apply Quiet; reflexivity]. }
    destruct (group_conversation _ _ _) as [[[ws k] x]|] eqn:E.
    { destruct (group_winv me D G _ _ _ _ _ _ Ho W E) as (A & (ext & ->) & _).
      inversion H; subst. constructor; cbn; auto.
      - apply Forall_app. split; [auto|apply Quiet, notices_quiet].
      - intros. apply ok_job_grow; auto.
      - intros j Hj; inversion Hj; subst; reflexivity. }
    destruct (book_conversation _ _ _ _) as [[[ws k] x]|] eqn:E2.
    { destruct (book_winv me D G _ _ _ _ _ _ Ho W E2) as (A & (ext & ->) & _).
      inversion H; subst. constructor; cbn; auto.
      - apply Forall_app. split; [auto|apply Quiet, notices_quiet].
      - intros. apply ok_job_grow; auto.
      - intros j Hj; inversion Hj; subst; reflexivity. }
    inversion H; subst. constructor; cbn; auto. intros j Hj; inversion Hj; subst; reflexivity.
  - destruct (s_main s) eqn:Mn; [discriminate|]. destruct (_ || _)%bool; [exact (Unch H)|].
    inversion H; subst. specialize (Q I). unfold waiting in Q. apply app_eq_nil in Q as [Q1 Q2].
    constructor; cbn; auto.
    + apply Quiet. rewrite flat_map_app, Q1. reflexivity.
    + intros j Hj. rewrite Hj in Q2. apply quiet_ok. auto.
    + congruence.
  - destruct (s_main s) eqn:Mn; [discriminate|].
    inversion H; subst. specialize (Q I). unfold waiting in Q. apply app_eq_nil in Q as [Q1 Q2].
    constructor; cbn [enqueue set_queue s_wins set_wins s_world s_queue s_rpc s_main s_shown]; auto.
    + apply Quiet. rewrite flat_map_app, Q1. reflexivity.
    + intros j Hj. rewrite Hj in Q2. apply quiet_ok. auto.
    + congruence.
Qed.

Lemma exec_shows : forall es s s', good D G (s_world s) -> Forall (ev_good D G) es -> winv me D G (s_wins s) -> shows s ->
  gently me s es -> exec me s es = Go s' -> shows s'.
Proof.
  induction es; cbn; intros s s' Ho He W Sh Q H.
  - inversion H; subst; auto.
  - inversion He; subst. destruct Q as [Q1 Q2]. destruct (step me s a) eqn:E; try discriminate.
    destruct (step_winv _ _ _ _ _ _ Ho H2 W E) as (A & B & _).
    eapply IHes; [exact B|auto|exact A| |exact Q2|exact H].
    exact (step_shows _ _ _ Ho H2 W Sh Q1 E).
Qed.

Lemma start_shows : forall o, shows (start me o).
Proof. intros. constructor; cbn; auto; try discriminate. intros ? ? []. Qed.

End Shown.

(** Order and number: whatever is closed when. *)
Definition msgs (ls : list line) : list line := filter is_msg ls.

Lemma step_order : forall me s e s', (forall j, s_main s = Some j -> job_msgs j = []) -> step me s e = Go s' ->
  (forall j, s_main s' = Some j -> job_msgs j = []) /\
  msgs (map snd (s_shown s')) ++ waiting s' = (msgs (map snd (s_shown s)) ++ waiting s) ++ arrives s e.
Proof.
  intros me s e s' Hm H.
  assert (Plain : forall t js, Go t = Go s' -> s_shown t = s_shown s -> s_queue t = s_queue s ++ js -> flat_map job_msgs js = [] ->
    s_rpc t = s_rpc s ->
    msgs (map snd (s_shown s')) ++ waiting s' = (msgs (map snd (s_shown s)) ++ waiting s) ++ []).
  { intros t js X A B C R. inversion X; subst. rewrite app_nil_r. unfold waiting. rewrite A, B, R.
    rewrite flat_map_app, C, app_nil_r. reflexivity. }
  assert (Same : forall s0, Go s0 = Go s' -> s_shown s0 = s_shown s -> s_queue s0 = s_queue s -> s_rpc s0 = s_rpc s ->
    msgs (map snd (s_shown s')) ++ waiting s' = (msgs (map snd (s_shown s)) ++ waiting s) ++ []).
  { intros. eapply (Plain s0 []); auto. rewrite app_nil_r. auto. }
  destruct e; cbn [step arrives] in *.
  - inversion H; subst. split; [auto|]. eapply Same; reflexivity.
  - destruct (s_rpc s) eqn:R; [discriminate|]. unfold get_conversation in H.
    destruct (mget (o_disk (s_world s)) from); [|split; [inversion H; subst; auto|eapply Same; [exact H|auto..]]].
    destruct (place _ _ _) as [[ws k] n]. inversion H; subst. split; [auto|].
    unfold waiting. cbn. rewrite R, flat_map_app, notices_quiet, !app_nil_r, app_assoc. reflexivity.
  - destruct (s_rpc s) eqn:R; [discriminate|].
    destruct (mget (o_groups (s_world s)) g) eqn:M; [|split; [inversion H; subst; auto|eapply Same; [exact H|auto..]]].
    destruct (mem from l); [|split; [inversion H; subst; auto|eapply Same; [exact H|auto..]]].
    unfold group_conversation in H. rewrite M in H.
    destruct (place _ _ _) as [[ws k] n]. inversion H; subst. split; [auto|].
    unfold waiting. cbn. rewrite R, flat_map_app, notices_quiet, !app_nil_r, app_assoc. reflexivity.
  - destruct (s_rpc s) eqn:R; [|discriminate]. inversion H; subst. split; [auto|]. rewrite app_nil_r.
    unfold waiting. cbn. rewrite R, flat_map_app. cbn. rewrite !app_nil_r. reflexivity.
  - destruct (s_main s) eqn:R; [|discriminate]. inversion H; subst. split; [cbn; discriminate|].
    eapply Plain; [reflexivity|reflexivity|reflexivity| |reflexivity]. cbn. rewrite app_nil_r. auto.
  - inversion H; subst. split; [auto|]. eapply Plain; reflexivity.
  - inversion H; subst. split; [auto|]. eapply Plain; reflexivity.
  - destruct (s_queue s) as [|j q] eqn:Eq; [discriminate|]. rewrite app_nil_r.
    destruct j as [a l|k|]; cbn [run_job] in H.
    + unfold run_print in H. destruct (Nat.ltb _ _); [|discriminate]. inversion H; subst. split; [auto|].
      unfold waiting, msgs. cbn. rewrite Eq, map_app, filter_app. cbn.
      rewrite <- !app_assoc. destruct (is_msg l); reflexivity.
    + unfold run_focus in H. destruct (negb _ && _)%bool; [inversion H; subst; split; [auto|]; unfold waiting; cbn; rewrite Eq; reflexivity|].
      destruct (Nat.ltb _ _); inversion H; subst; (split; [auto|]); unfold waiting; cbn; rewrite Eq; cbn; [reflexivity|].
      rewrite flat_map_app. cbn. rewrite app_nil_r. reflexivity.
    + unfold run_status in H. destruct (Nat.ltb _ _); [|discriminate]. inversion H; subst.
      split; [auto|]. unfold waiting. cbn. rewrite Eq. reflexivity.
  - inversion H; subst. split; [auto|]. eapply Plain; reflexivity.
  - destruct (s_main s); [discriminate|].
    destruct (action _ _ _ _ _) as [[ws n] a] eqn:E.
    destruct a; inversion H; subst; (split; [intros j Hj; inversion Hj; subst; reflexivity|]);
      (eapply Plain; [reflexivity|reflexivity|reflexivity|apply notices_quiet|reflexivity]).
  - destruct (s_main s) eqn:Mn; [discriminate|]. destruct (first _ _).
    { inversion H; subst. split; [cbn; congruence|]. eapply Plain; reflexivity. }
    destruct (group_conversation _ _ _) as [[[ws k] x]|] eqn:E.
    { inversion H; subst. split; [intros j Hj; inversion Hj; subst; reflexivity|].
      eapply Plain; [reflexivity|reflexivity|reflexivity|apply notices_quiet|reflexivity]. }
    destruct (book_conversation _ _ _ _) as [[[ws k] x]|] eqn:E2.
    { inversion H; subst. split; [intros j Hj; inversion Hj; subst; reflexivity|].
      eapply Plain; [reflexivity|reflexivity|reflexivity|apply notices_quiet|reflexivity]. }
    inversion H; subst. split; [intros j Hj; inversion Hj; subst; reflexivity|]. eapply Same; reflexivity.
  - destruct (s_main s) eqn:Mn; [discriminate|]. destruct (_ || _)%bool.
    { inversion H; subst. split; [congruence|]. eapply Same; reflexivity. }
    inversion H; subst. split; [cbn; congruence|]. eapply Plain; reflexivity.
  - destruct (s_main s) eqn:Mn; [discriminate|]. inversion H; subst. split; [cbn; congruence|]. eapply Plain; reflexivity.
Qed.

Lemma exec_order : forall me es s s', (forall j, s_main s = Some j -> job_msgs j = []) -> exec me s es = Go s' ->
  msgs (map snd (s_shown s')) ++ waiting s' = (msgs (map snd (s_shown s)) ++ waiting s) ++ arrived me s es.
Proof.
  induction es; cbn; intros s s' Hm H.
  - inversion H; subst. rewrite app_nil_r. reflexivity.
  - destruct (step me s a) eqn:E; try discriminate.
    destruct (step_order _ _ _ _ Hm E) as (A & B).
    rewrite (IHes _ _ A H), B, <- !app_assoc. reflexivity.
Qed.
