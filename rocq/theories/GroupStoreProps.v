(** Group chats on disk and over several clients. *)
From Verif Require Import Base IniModel IniMemProofs IniFileProofs XdrModel XdrProofs RpcModel RpcProofs StrconvModel HexModel CrpcModel BlobModel BlobProps AcctProofs ServerDbModel ServerDbProofs UiModel Utf8Model GroupModel GroupProofs GroupProps.
From Verif Require IniDiskProofs.
Local Open Scope N_scope.

(** * C54: groups over a restart *)

(** Every write and removal of an event succeeds. *)
Definition io_ok (e : event) : Prop :=
  match e with
  | CNew _ _ _ w | CJoin _ _ w | CAcked _ w | RJoin _ _ _ w | RPart _ _ _ _ w | RList _ _ w | RUpdate _ _ w => w = Written
  | CForce _ rm | CKill _ _ rm | RKill _ _ rm => rm = true
  | RKick _ _ w rm => w = Written /\ rm = true
  | _ => True
  end.

(** A name for which there can be a file. *)
Definition name_ok (n : bytes) : Prop := valid_name n = true /\ dir_name n = false.

(** The files are the groups. *)
Definition in_sync (c : gclient) : Prop := forall n,
  (name_ok n -> mget (c_disk c) n = option_map (enc GroupList_codec) (mget (c_groups c) n)) /\
  (~ name_ok n -> mget (c_disk c) n = None).

Lemma name_ok_dec n : name_ok n \/ ~ name_ok n.
Proof. unfold name_ok. destruct (valid_name n), (dir_name n); intuition congruence. Qed.

Definition sync_except (c : gclient) (m : bytes) : Prop := forall n,
  (name_ok n -> n <> m -> mget (c_disk c) n = option_map (enc GroupList_codec) (mget (c_groups c) n)) /\
  (~ name_ok n -> mget (c_disk c) n = None).

Lemma save_sync c m g c' b : sync_except c m -> mget (c_groups c) m = Some g -> save_group c m Written = (c', b) ->
  in_sync c' /\ (b = true <-> name_ok m) /\ (b = false -> c' = c).
Proof.
  intros S G H. unfold save_group in H. rewrite G in H.
  destruct (valid_name m) eqn:V; cbn [negb] in H; [destruct (dir_name m) eqn:D|];
    apply pair_equal_spec in H; destruct H as [<- <-].
  - split; [|split; [unfold name_ok; intuition congruence|auto]]. intros n. destruct (S n) as [A B]. split; auto. intros N. apply A; auto.
    intros ->. destruct N. congruence.
  - split; [|split; [unfold name_ok; intuition congruence|discriminate]]. intros n. destruct (S n) as [A B]. cbn [set_disk c_disk c_groups].
    rewrite mget_mset. destruct (eqb_spec n m) as [->|Q]; [|split; auto]. split; [now rewrite G|]. intros N. destruct N. now split.
  - split; [|split; [unfold name_ok; intuition congruence|auto]]. intros n. destruct (S n) as [A B]. split; auto. intros N. apply A; auto.
    intros ->. destruct N. congruence.
Qed.

Lemma set_sync c m g : in_sync c -> sync_except (set_groups c (mset (c_groups c) m g)) m.
Proof.
  intros S n. destruct (S n) as [A B]. split; auto. intros N Q. cbn [set_groups c_disk c_groups]. rewrite mget_mset_ne by auto. auto.
Qed.

Lemma save_set_sync c m g c' b : in_sync c -> save_group (set_groups c (mset (c_groups c) m g)) m Written = (c', b) -> in_sync c'.
Proof. intros S H. eapply save_sync; [apply set_sync; exact S| |exact H]. cbn [set_groups c_groups]. apply mget_mset_eq. Qed.

Lemma delete_sync c m c' b : in_sync c -> delete_group c m true = (c', b) -> in_sync c'.
Proof.
  intros S H. unfold delete_group in H. destruct (valid_name m) eqn:V; cbn [negb] in H.
  - destruct (dir_name m) eqn:D; [|rewrite Bool.andb_true_r in H; unfold mhas in H; destruct (mget (c_disk c) m) as [x|] eqn:X];
      apply pair_equal_spec in H; destruct H as [<- _]; intros n; destruct (S n) as [A B]; cbn [set_disk set_groups c_disk c_groups];
      rewrite ?mget_mdel; destruct (eqb_spec n m) as [->|Q]; auto.
    split; auto. intros [_ N]. congruence.
  - apply pair_equal_spec in H. destruct H as [<- _]. exact S.
Qed.

Lemma update_sync c from gl c' b : in_sync c -> update_list c from gl Written = (c', b) -> in_sync c'.
Proof.
  intros S H. unfold update_list in H. destruct (mget (c_groups c) (GroupList_Name gl)) as [g|]; [destruct (admin g) as [a|]; [destruct (eqb a from)|]|].
  1: eapply save_set_sync; eauto.
  all: apply pair_equal_spec in H; destruct H as [<- _]; exact S.
Qed.

Lemma same_sync c c' : c_groups c' = c_groups c -> c_disk c' = c_disk c -> in_sync c -> in_sync c'.
Proof. intros G D S n. rewrite G, D. apply S. Qed.

Lemma step_sync s c e o c' : in_sync c -> io_ok e -> e <> Restart -> gstep s c e o c' -> in_sync c'.
Proof.
  intros S IO NR H. destruct e; cbn [gstep io_ok] in *; subst; try contradiction.
  - unfold gc_new in H. destruct (if valid_name n then _ else _); [apply pair_equal_spec in H; now destruct H as [_ ->]|].
    destruct (mhas _ _); [apply pair_equal_spec in H; now destruct H as [_ ->]|].
    destruct (save_group _ _ _) as [c1 b] eqn:X. apply pair_equal_spec in H. destruct H as [_ ->]. eapply save_set_sync; eauto.
  - unfold gc_invite in H. destruct (mget _ _) as [g|]; [|destruct H as [_ ->]; auto]. destruct (admin g) as [a|]; [|destruct H as [_ ->]; auto].
    destruct (negb _); [destruct H as [_ ->]; auto|]. destruct (mem _ _); [destruct H as [_ ->]; auto|].
    destruct H as (r & f' & _ & -> & _). apply (same_sync c); auto.
  - unfold gc_join in H. destruct (mhas _ _); [destruct H as [_ ->]; auto|]. destruct H as (r & _ & H). destruct r as [from|]; [|destruct H as [_ ->]; auto].
    destruct (save_group _ _ _) as [c1 b] eqn:X. apply save_set_sync in X; auto. destruct b; cbn [negb] in H.
    + destruct H as (b' & f' & _ & -> & _). now apply (same_sync c1).
    + destruct H as [_ ->]; auto.
  - unfold gc_kick in H. destruct (mget _ _) as [g|]; [|apply pair_equal_spec in H; now destruct H as [_ ->]].
    destruct (GroupList_Members g); [apply pair_equal_spec in H; now destruct H as [_ ->]|].
    destruct (negb _); [apply pair_equal_spec in H; now destruct H as [_ ->]|].
    destruct (eqb _ _); [apply pair_equal_spec in H; now destruct H as [_ ->]|].
    apply pair_equal_spec in H. destruct H as [_ ->]. now apply (same_sync c).
  - destruct H as [_ ->]. unfold kick_acked. destruct (nth_error _ _) as [k|]; auto. cbn [q_name q_new q_got q_want].
    destruct (negb _); [now apply (same_sync c)|]. destruct (mhas _ _); [|now apply (same_sync c)].
    destruct (save_group _ _ _) as [c1 b] eqn:X. cbn [fst]. eapply (save_set_sync (set_kicks c _)); [|exact X]. now apply (same_sync c).
  - destruct H as [_ ->]; auto.
  - destruct (delete_group _ _ _) as [c1 b] eqn:X. destruct H as [_ ->]. eapply delete_sync; eauto.
  - unfold gc_kill in H. destruct (negb online); [apply pair_equal_spec in H; now destruct H as [_ ->]|].
    destruct (mget _ _) as [g|]; [|apply pair_equal_spec in H; now destruct H as [_ ->]]. destruct (delete_group _ _ _) as [c1 b] eqn:X.
    destruct (GroupList_Members g); [|destruct (negb _)]; apply pair_equal_spec in H; destruct H as [_ ->]; auto; eapply delete_sync; eauto.
  - destruct H as [_ ->]; auto.
  - destruct H as [_ H]. destruct known; [destruct H as (ok & f' & _ & ->); now apply (same_sync c)|now subst].
  - unfold handle_join in H. destruct (mget _ _) as [g|] eqn:G; [|destruct H as [_ ->]; auto].
    destruct (GroupList_Members g) as [|a others]; [destruct H as [_ ->]; auto|]. destruct (negb _); [destruct H as [_ ->]; auto|].
    destruct H as (ok & f' & _ & H). assert (S1 : in_sync (set_invites c f')) by now apply (same_sync c).
    destruct (negb ok); [destruct H as [_ ->]; auto|]. destruct (negb _); [destruct H as [_ ->]; auto|]. destruct (mem _ _); [destruct H as [_ ->]; auto|].
    destruct (save_group _ _ _) as [c2 b] eqn:X.
    pose proof (save_sync _ _ _ _ _ (set_sync _ _ _ S1) (mget_mset_eq _ _ _) X) as (Y & _ & Z).
    destruct b; [destruct H as [_ ->]; auto|]. destruct H as [_ ->]. rewrite (Z eq_refl) in Y |- *.
    intros n. destruct (S n) as [A B]. cbn [set_groups set_invites c_groups c_disk]. rewrite !mget_mset.
    destruct (eqb_spec n (GroupJoin_Name gj)) as [->|Q]; [|split; auto]. rewrite <- G. split; auto.
  - unfold handle_part in H. destruct (mget _ _) as [g|]; [|apply pair_equal_spec in H; now destruct H as [_ ->]].
    destruct (GroupList_Members g); [apply pair_equal_spec in H; now destruct H as [_ ->]|].
    destruct (negb _); [apply pair_equal_spec in H; now destruct H as [_ ->]|].
    destruct (negb _); [apply pair_equal_spec in H; now destruct H as [_ ->]|].
    destruct (save_group _ _ _) as [c1 b] eqn:X. apply pair_equal_spec in H. destruct H as [_ ->]. eapply save_set_sync; eauto.
  - destruct IO as [-> ->]. unfold handle_kick in H. destruct (mget _ _) as [g|]; [|apply pair_equal_spec in H; now destruct H as [_ ->]].
    destruct (admin g) as [a|]; [|apply pair_equal_spec in H; now destruct H as [_ ->]].
    destruct (negb _); [apply pair_equal_spec in H; now destruct H as [_ ->]|]. destruct (eqb (GroupKick_Member gk) _).
    + destruct (delete_group _ _ _) as [c1 b] eqn:X. apply pair_equal_spec in H. destruct H as [_ ->]. eapply delete_sync; eauto.
    + destruct (update_list _ _ _ _) as [c1 b] eqn:X. apply pair_equal_spec in H. destruct H as [_ ->]. eapply update_sync; eauto.
  - unfold handle_kill in H. destruct (mget _ _) as [g|]; [|apply pair_equal_spec in H; now destruct H as [_ ->]].
    destruct (admin g) as [a|]; [|apply pair_equal_spec in H; now destruct H as [_ ->]].
    destruct (negb _); [apply pair_equal_spec in H; now destruct H as [_ ->]|].
    destruct (delete_group _ _ _) as [c1 b] eqn:X. apply pair_equal_spec in H. destruct H as [_ ->]. eapply delete_sync; eauto.
  - unfold handle_list in H. destruct (update_list _ _ _ _) as [c1 b] eqn:X. apply pair_equal_spec in H. destruct H as [_ ->]. eapply update_sync; eauto.
  - unfold handle_list in H. destruct (update_list _ _ _ _) as [c1 b] eqn:X. apply pair_equal_spec in H. destruct H as [_ ->]. eapply update_sync; eauto.
  - unfold handle_message in H. destruct (mget _ _) as [g|]; [destruct (mem _ _); [destruct (highlight _ _ _ _ _ _)|]|];
      apply pair_equal_spec in H; destruct H as [_ ->]; auto.
Qed.

(** Files that are groups of their names are all loaded. *)
Lemma load_spec disk :
  (forall n b, mget disk n = Some b -> exists g, dec GroupList_codec 0 b = Some (g, []) /\ GroupList_Name g = n) ->
  forall n, mget (load_groups disk) n = match mget disk n with
    | Some b => match dec GroupList_codec 0 b with Some (g, _) => Some g | None => None end
    | None => None end.
Proof.
  intros D n. unfold load_groups.
  assert (A : forall l gs, mget (fold_left (fun gs n => match mget disk n with
      | None => gs
      | Some b => match dec GroupList_codec 0 b with
                  | None => gs
                  | Some (g, _) => if mhas gs (GroupList_Name g) then gs else mset gs (GroupList_Name g) g
                  end
      end) l gs) n = match mget gs n with
        | Some g => Some g
        | None => if mem n l then match mget disk n with Some b => match dec GroupList_codec 0 b with Some (g, _) => Some g | None => None end | None => None end else None
        end).
  { induction l as [|x l IH]; intros gs; cbn [fold_left]; [destruct (mget gs n); reflexivity|]. rewrite IH. clear IH. cbn [mem existsb].
    destruct (mget disk x) as [b|] eqn:X.
    - destruct (D _ _ X) as (g & E & N). rewrite E, N. unfold mhas. destruct (mget gs x) as [g0|] eqn:Gx.
      + destruct (mget gs n) eqn:Gn; auto. destruct (eqb_spec n x) as [->|Q]; [congruence|reflexivity].
      + rewrite mget_mset. destruct (eqb_spec n x) as [->|Q]; [now rewrite Gx, X, E|reflexivity].
    - destruct (mget gs n); auto. destruct (eqb_spec n x) as [->|Q]; [|reflexivity]. cbn [orb]. rewrite X. now destruct (mem x l). }
  rewrite A. cbn [mget]. destruct (mem n (lex_sort (mkeys disk))) eqn:Me; auto.
  destruct (mget disk n) as [b|] eqn:X; auto. apply mem_false in Me. exfalso. apply Me.
  eapply Permutation.Permutation_in; [symmetry; apply IniDiskProofs.lex_sort_perm|]. eapply mget_Some_keys; eauto.
Qed.

Lemma enc_dec g : GroupList_ok 0 g -> dec GroupList_codec 0 (enc GroupList_codec g) = Some (g, []).
Proof. intros O. pose proof (proj1 good_GroupList 0 g [] O) as R. now rewrite app_nil_r in R. Qed.

(** One session: all groups are the same after a restart, provided their names are
    names of files, they fit the encoding, and writing and removing never failed.
    What the next session starts with meets the premises again. *)
Theorem C54_survive : forall s c0 h c o c',
  in_sync c0 -> keyed c0 -> grun s c0 h c -> no_restart h -> Forall (fun x => io_ok (fst x)) h ->
  (forall n g, mget (c_groups c) n = Some g -> name_ok n /\ GroupList_ok 0 g) ->
  gstep s c Restart o c' ->
  (forall n, mget (c_groups c') n = mget (c_groups c) n) /\ in_sync c' /\ keyed c' /\
  c_invites c' = c_invites c /\ c_joins c' = c_joins c.
Proof.
  intros s c0 h c o c' S0 K0 R NR IO Fit [_ ->].
  assert (SK : in_sync c /\ keyed c).
  { clear Fit. induction R as [|h c e o' c1 R IH St]; auto. inversion IO as [|? ? IO1 IO2]; subst. cbn [fst] in IO1.
    destruct IH as [S K]; auto; [intros o2 I; apply (NR o2); now right|].
    split; [|eapply step_keyed; eauto]. apply (step_sync s c e o' c1); auto. intros Z. apply (NR o'). left. congruence. }
  destruct SK as [S K].
  assert (L : forall n, mget (load_groups (c_disk c)) n = mget (c_groups c) n).
  { intros n. rewrite load_spec.
    - destruct (name_ok_dec n) as [N|N].
      + rewrite (proj1 (S n) N). destruct (mget (c_groups c) n) as [g|] eqn:G; cbn [option_map]; auto. destruct (Fit _ _ G) as [_ F].
        now rewrite enc_dec.
      + rewrite (proj2 (S n) N). destruct (mget (c_groups c) n) as [g|] eqn:G; auto. destruct (Fit _ _ G) as [F _]. contradiction.
    - intros m b D. destruct (name_ok_dec m) as [N|N]; [|rewrite (proj2 (S m) N) in D; discriminate].
      rewrite (proj1 (S m) N) in D. destruct (mget (c_groups c) m) as [g|] eqn:G; [|discriminate]. injection D as <-.
      destruct (Fit _ _ G) as [_ F]. exists g. split; [now apply enc_dec|]. now apply K. }
  cbn [c_groups c_disk c_invites c_joins]. split; auto. split; [|split; [|auto]].
  - intros n. cbn [c_groups c_disk]. rewrite L. apply S.
  - split; [|constructor]. cbn [c_groups]. intros n g G. rewrite L in G. now apply K.
Qed.
Print Assumptions C54_survive.

Lemma C54_start : in_sync new_client /\ keyed new_client.
Proof. split; [|apply new_keyed]. intros n. now split. Qed.

(** Finding: a group that could not be saved is refused, but exists until the next
    restart, then it is gone. *)
Theorem C54_unsaved_refuted : forall s c n now,
  in_sync c -> (forall m g, mget (c_groups c) m = Some g -> GroupList_ok 0 g /\ GroupList_Name g = m) ->
  name_ok n -> mget (c_groups c) n = None ->
  exists o c1 c2, gstep s c (CNew n now false (Failed None)) o c1 /\ o_result o = Error /\
    mget (c_groups c1) n = Some (mkGroupList n 0 now [i_id s]) /\
    gstep s c1 Restart fine c2 /\ mget (c_groups c2) n = None.
Proof.
  intros s c n now S Fit [V D] G.
  exists error, (set_groups c (mset (c_groups c) n (mkGroupList n 0 now [i_id s]))).
  eexists. split; [|split; [reflexivity|split; [apply mget_mset_eq|split; [split; reflexivity|]]]].
  - cbn [gstep]. unfold gc_new. rewrite V, D. unfold mhas. rewrite (proj1 (S n) (conj V D)), G. cbn [option_map orb].
    unfold save_group. rewrite V, D. cbn [negb set_groups c_groups]. now rewrite mget_mset_eq.
  - cbn [c_groups set_groups c_disk]. rewrite load_spec; [now rewrite (proj1 (S n) (conj V D)), G|].
    intros m b E. destruct (name_ok_dec m) as [N|N]; [|rewrite (proj2 (S m) N) in E; discriminate].
    rewrite (proj1 (S m) N) in E. destruct (mget (c_groups c) m) as [g|] eqn:Gm; [|discriminate]. injection E as <-.
    destruct (Fit _ _ Gm). exists g. split; [now apply enc_dec|auto].
Qed.
Print Assumptions C54_unsaved_refuted.

(** Finding: a group killed while its file cannot be removed comes back. *)
Theorem C54_returns_refuted : forall s c n g others,
  in_sync c -> (forall m g, mget (c_groups c) m = Some g -> GroupList_ok 0 g /\ GroupList_Name g = m) ->
  name_ok n -> mget (c_groups c) n = Some g -> GroupList_Members g = i_id s :: others ->
  exists o c1 c2, gstep s c (CKill n true false) o c1 /\ mget (c_groups c1) n = None /\ map fst (o_sent o) = others /\
    gstep s c1 Restart fine c2 /\ mget (c_groups c2) n = Some g.
Proof.
  intros s c n g others S Fit [V D] G M.
  exists (done false (map (fun m => (m, GKill (mkGroupKill n (bs "group chat killed")))) others)), (set_groups c (mdel (c_groups c) n)).
  eexists. split; [|split; [cbn; rewrite mget_mdel, eqb_refl; reflexivity|split; [|split; [split; reflexivity|]]]].
  - cbn [gstep]. unfold gc_kill. cbn [negb]. rewrite G, M, eqb_refl. cbn [negb]. unfold delete_group. rewrite V, D. cbn [negb].
    now rewrite Bool.andb_false_r.
  - cbn [done o_sent]. rewrite map_map. apply map_id.
  - cbn [c_groups set_groups c_disk]. rewrite load_spec; [rewrite (proj1 (S n) (conj V D)), G; cbn [option_map]; rewrite enc_dec; [auto|now apply (Fit n)]|].
    intros m b E. destruct (name_ok_dec m) as [N|N]; [|rewrite (proj2 (S m) N) in E; discriminate].
    rewrite (proj1 (S m) N) in E. destruct (mget (c_groups c) m) as [g0|] eqn:Gm; [|discriminate]. injection E as <-.
    destruct (Fit _ _ Gm). exists g0. split; [now apply enc_dec|auto].
Qed.
Print Assumptions C54_returns_refuted.

(** A group is made, Bob joins another one of ours, a restart. *)
Example C54_case :
  let c1 := snd (gc_new me0 3 false Written new_client club) in
  let c2 := snd (gc_new me0 4 false Written c1 (bs "pub")) in
  load_groups (c_disk c2) = c_groups c2 /\ length (c_groups c2) = 2%nat /\ name_ok club /\ name_ok (bs "pub").
Proof. split; [vm_compute; reflexivity|]. repeat split; vm_compute; reflexivity. Qed.

(** * C55: the invitations received *)

Lemma step_joins s c e o c' : gstep s c e o c' ->
  match e with CJoin _ _ _ | RInvite _ _ _ => True | _ => c_joins c' = c_joins c end.
Proof.
  destruct e; cbn [gstep]; auto; intros H.
  - unfold gc_new in H. crush; cbn in *; congruence.
  - unfold gc_invite in H. destruct (mget _ _) as [g|]; [|destruct H as [_ ->]; auto]. destruct (admin g) as [a|]; [|destruct H as [_ ->]; auto].
    destruct (negb _); [destruct H as [_ ->]; auto|]. destruct (mem _ _); [destruct H as [_ ->]; auto|].
    destruct H as (r & f' & _ & -> & _). reflexivity.
  - unfold gc_kick in H. crush; cbn in *; congruence.
  - destruct H as [_ ->]. unfold kick_acked. destruct (nth_error _ _); auto. cbn [q_got q_want].
    destruct (negb _); auto. destruct (mhas _ _); auto. destruct (save_group _ _ _) as [c1 b] eqn:S. crush. cbn in *. congruence.
  - now destruct H as [_ ->].
  - crush; cbn in *; congruence.
  - unfold gc_kill in H. crush; cbn in *; congruence.
  - now destruct H as [_ ->].
  - unfold handle_join in H. destruct (mget _ _) as [g|]; [|destruct H as [_ ->]; auto].
    destruct (GroupList_Members g) as [|a others]; [destruct H as [_ ->]; auto|]. destruct (negb _); [destruct H as [_ ->]; auto|].
    destruct H as (ok & f' & _ & H). destruct (negb ok); [destruct H as [_ ->]; auto|]. destruct (negb _); [destruct H as [_ ->]; auto|].
    destruct (mem _ _); [destruct H as [_ ->]; auto|]. destruct (save_group _ _ _) as [c2 b] eqn:X. crush; cbn in *; congruence.
  - unfold handle_part in H. crush; cbn in *; congruence.
  - unfold handle_kick in H. crush; cbn in *; congruence.
  - unfold handle_kill in H. crush; cbn in *; congruence.
  - unfold handle_list in H. destruct (update_list _ _ _ _) eqn:X. crush; cbn in *; congruence.
  - unfold handle_list in H. destruct (update_list _ _ _ _) eqn:X. crush; cbn in *; congruence.
  - unfold handle_message in H. crush; cbn in *; congruence.
  - now destruct H as [_ ->].
Qed.

(** An invitation with a name that an ini file can hold. *)
Definition harmless (e : event) : Prop :=
  match e with
  | RInvite from gi known => identity from /\ invite_ok gi /\ clean_name (GroupInvite_Name gi) /\ GroupInvite_Name gi <> []
  | _ => True
  end.

(** [who] invited us to [n] with the token [t]. *)
Definition invited_by (who n : bytes) (t : N) (x : event * out) : Prop :=
  exists gi o, x = (RInvite who gi true, o) /\ GroupInvite_Name gi = n /\ GroupInvite_Token gi = t.

Definition tracked (h : list (event * out)) (c : gclient) : Prop :=
  sound (c_joins c) /\ forall n k v, entry (c_joins c) n k = Some v ->
    exists who gi o, k = hex_encode who /\ identity who /\ v = stored gi /\ invite_ok gi /\ GroupInvite_Name gi = n /\ In (RInvite who gi true, o) h.

Lemma join_keeps s c n t w o c' : sound (c_joins c) -> gstep s c (CJoin n t w) o c' ->
  sound (c_joins c') /\ (forall n0 k, entry (c_joins c') n0 k = entry (c_joins c) n0 k \/ (n0 = n /\ entry (c_joins c') n0 k = None)).
Proof.
  intros S H. cbn [gstep] in H. unfold gc_join in H. destruct (mhas _ _); [destruct H as [_ ->]; auto|].
  destruct H as (r & _ & H). destruct r as [from|]; [|destruct H as [_ ->]; auto].
  destruct (save_group _ _ _) as [c1 b] eqn:X. apply save_frame in X. destruct X as (_ & _ & J & _). cbn [set_groups c_joins] in J.
  destruct b; cbn [negb] in H; [|destruct H as [_ ->]; rewrite J; auto].
  destruct H as (b' & f' & D & -> & _). cbn [set_joins c_joins]. rewrite J in D. apply del_join_spec in D; auto. destruct D as [S' D]. split; auto.
  intros n0 k. destruct b'; [|subst; auto]. rewrite D. destruct (eqb_spec n0 n); auto.
Qed.

Lemma run_tracked s h c : grun s new_client h c -> Forall (fun x => harmless (fst x)) h -> tracked h c.
Proof.
  intros R F. induction R as [|h c e o c' R IH St]; [split; [exact I|discriminate]|].
  inversion F as [|? ? F1 F2]; subst. cbn [fst] in F1. destruct (IH F2) as [S T]. clear IH.
  assert (Up : forall n k v, entry (c_joins c) n k = Some v -> exists who gi o0, k = hex_encode who /\ identity who /\ v = stored gi /\ invite_ok gi /\
             GroupInvite_Name gi = n /\ In (RInvite who gi true, o0) ((e, o) :: h)).
  { intros n k v E. destruct (T _ _ _ E) as (who & gi & o0 & A & B & C & D & G & I0). exists who, gi, o0. repeat (split; auto). now right. }
  pose proof (step_joins _ _ _ _ _ St) as J.
  destruct e; try (unfold tracked; rewrite J; split; [exact S|exact Up]).
  - destruct (join_keeps _ _ _ _ _ _ _ S St) as [S' K]. split; auto. intros n0 k v E. destruct (K n0 k) as [Q|[_ Q]]; [|congruence].
    apply Up. congruence.
  - destruct F1 as (Id & Ok & Cl & NE). cbn [gstep] in St. destruct St as [-> H]. destruct known; [|subst c'; split; [exact S|exact Up]].
    destruct H as (ok & f' & A & ->). cbn [set_joins c_joins]. apply join_add_spec in A; auto. destruct A as [S' A]. split; auto.
    cbn [set_joins c_joins]. intros n k v E. destruct ok; destruct A as [_ A]; rewrite A in E; [|now apply Up].
    destruct (eqb_spec n (GroupInvite_Name gi)) as [Q1|Q1]; [destruct (eqb_spec k (hex_encode from)) as [Q2|Q2]|]; cbn [andb] in E; try now apply Up.
    injection E as <-. exists from, gi, fine. subst. repeat (split; auto). now left.
Qed.

Lemma records_entry file d n k v : db_existing file = Some d -> wf_tables (db_tables d) ->
  In (k, v) (ini_records d n) <-> lookup (db_tables d) n k = Some v.
Proof.
  intros E [W1 W2]. unfold ini_records, lookup. destruct (mget (db_tables d) n) as [t|] eqn:T; [|split; [intros []|discriminate]].
  split; intros H; [apply In_mget; auto; eapply W2; eauto|now apply mget_In].
Qed.

Lemma identity_id who : identity who -> to_identity who = who.
Proof. intros [L _]. unfold to_identity. rewrite firstn_app, L, Nat.sub_diag, <- L, firstn_all. apply app_nil_r. Qed.

(** A join request goes to somebody who invited us to a group of this name with this
    token, and says so. *)
Theorem C55_to_inviter : forall s h c n t w o c' who p,
  grun s new_client h c -> Forall (fun x => harmless (fst x)) h ->
  gstep s c (CJoin n t w) o c' -> In (who, p) (o_sent o) ->
  p = GJoin (mkGroupJoin n t []) /\ exists x, In x h /\ invited_by who n t x.
Proof.
  intros s h c n t w o c' who p R F H I. destruct (run_tracked _ _ _ R F) as [S T].
  cbn [gstep] in H. unfold gc_join in H. destruct (mhas _ _); [destruct H as [-> _]; destruct I|].
  destruct H as (r & G & H). destruct r as [from|]; [|destruct H as [-> _]; destruct I].
  assert (Q : who = from /\ p = GJoin (mkGroupJoin n t [])).
  { destruct (save_group _ _ _) as [c1 b]. destruct b; cbn [negb] in H.
    - destruct H as (b' & f' & _ & _ & ->). cbn [done o_sent] in I. destruct I as [I|[]]. injection I as <- <-. auto.
    - destruct H as [-> _]. cbn [done o_sent] in I. destruct I as [I|[]]. injection I as <- <-. auto. }
  destruct Q as [-> ->]. split; auto. clear H I.
  unfold get_join in G. pose proof (existing_sound _ S) as X. destruct (db_existing (c_joins c)) as [d|] eqn:D; [|discriminate].
  destruct X as (W & _ & L & _). destruct G as (k & v & i & I & Fi & Hk & ->). apply (records_entry _ _ _ _ _ D W) in I. rewrite L in I.
  destruct (T _ _ _ I) as (who & gi & o0 & -> & Id & -> & Ok & N & In0). rewrite hex_round in Hk by apply Id. injection Hk as <-.
  cbn [snd] in Fi. rewrite stored_round in Fi by auto. apply N.eqb_eq in Fi. rewrite identity_id by auto.
  exists (RInvite who gi true, o0). split; auto. exists gi, o0. auto.
Qed.
Print Assumptions C55_to_inviter.

(** An invitation works: the first one of this inviter to this group can be answered
    until a group of that name has been joined. *)
Theorem C55_works : forall s h1 h2 c1 o1 c n w o c' who gi,
  grun s new_client h1 c1 -> Forall (fun x => harmless (fst x)) h1 ->
  harmless (RInvite who gi true) -> GroupInvite_Name gi = n ->
  (forall t x, In x h1 -> ~ invited_by who n t x) ->
  (exists c2, gstep s c1 (RInvite who gi true) o1 c2 /\ grun s c2 h2 c) ->
  Forall (fun x => harmless (fst x)) h2 -> (forall t w0 o0, ~ In (CJoin n t w0, o0) h2) ->
  mget (c_groups c) n = None -> gstep s c (CJoin n (GroupInvite_Token gi) w) o c' ->
  exists x, o_sent o = [(x, GJoin (mkGroupJoin n (GroupInvite_Token gi) []))].
Proof.
  intros s h1 h2 c1 o1 c n w o c' who gi R1 F1 HI N No (c2 & St & R2) F2 NJ G H.
  destruct (run_tracked _ _ _ R1 F1) as [S1 T1]. destruct HI as (Id & Ok & Cl & NE).
  assert (E2 : sound (c_joins c2) /\ entry (c_joins c2) n (hex_encode who) = Some (stored gi)).
  { cbn [gstep] in St. destruct St as [_ (ok & f' & A & ->)]. cbn [set_joins c_joins]. apply join_add_spec in A; auto. destruct A as [S' A].
    split; auto. destruct ok; destruct A as [A1 A].
    - rewrite A, N, !eqb_refl. reflexivity.
    - exfalso. destruct (entry (c_joins c1) (GroupInvite_Name gi) (hex_encode who)) as [v|] eqn:E; [|congruence].
      destruct (T1 _ _ _ E) as (who' & gi' & o' & Eh & Id' & _ & _ & N' & I). apply hex_inj in Eh; try apply Id; try apply Id'. subst who'.
      apply (No (GroupInvite_Token gi') _ I). exists gi', o'. split; auto. split; [congruence|auto]. }
  assert (E : sound (c_joins c) /\ entry (c_joins c) n (hex_encode who) = Some (stored gi)).
  { clear H G. induction R2 as [|h c e oo c3 R IH S3]; auto. inversion F2 as [|? ? Fa Fb]; subst. cbn [fst] in Fa.
    destruct IH as [S E]; auto; [intros t w0 o0 I; apply (NJ t w0 o0); now right|].
    pose proof (step_joins _ _ _ _ _ S3) as J. destruct e; try (rewrite J; auto).
    - destruct (join_keeps _ _ _ _ _ _ _ S S3) as [S' K]. split; auto. destruct (K (GroupInvite_Name gi) (hex_encode who)) as [Q|[Q _]]; [congruence|].
      exfalso. subst n. apply (NJ token w0 oo). now left.
    - cbn [gstep] in S3. destruct S3 as [-> S3]. destruct known; [|subst c3; auto].
      destruct S3 as (ok & f' & A & ->). destruct Fa as (Id1 & Ok1 & Cl1 & NE1). cbn [set_joins c_joins]. apply join_add_spec in A; auto. destruct A as [S' A].
      split; auto. destruct ok; destruct A as [A1 A]; rewrite A; auto.
      destruct (eqb_spec (GroupInvite_Name gi) (GroupInvite_Name gi0)) as [Q1|Q1]; auto.
      destruct (eqb_spec (hex_encode who) (hex_encode from)) as [Q2|Q2]; auto. exfalso. congruence. }
  destruct E as [S E]. cbn [gstep] in H. unfold gc_join, mhas in H. rewrite G in H. destruct H as (r & GJ & H).
  destruct r as [from|].
  - exists from. destruct (save_group _ _ _) as [c3 b]. destruct b; cbn [negb] in H.
    + destruct H as (b' & f' & _ & _ & ->). reflexivity.
    + destruct H as [-> _]. reflexivity.
  - exfalso. unfold get_join in GJ. pose proof (existing_sound _ S) as X. destruct (db_existing (c_joins c)) as [d|] eqn:D.
    + destruct X as (W & _ & L & _). specialize (GJ (hex_encode who) (stored gi)). rewrite (records_entry _ _ _ _ _ D W), L in GJ.
      specialize (GJ E). cbn [snd] in GJ. rewrite stored_round, N.eqb_refl in GJ by auto. rewrite hex_round in GJ by apply Id.
      specialize (GJ eq_refl). discriminate.
    + rewrite X in E. discriminate.
Qed.
Print Assumptions C55_works.

(** Finding: a second invitation of the same user to a group of the same name is
    dropped as long as the first one is there; its token cannot be used. *)
Theorem C55_again_refuted : forall s c n t w o c' who gi1 gi2 o2 c2,
  sound (c_joins c) -> identity who -> invite_ok gi1 -> invite_ok gi2 -> clean_name n -> n <> [] ->
  entry (c_joins c) n (hex_encode who) = Some (stored gi1) ->
  (* no other invitation with this token *)
  (forall k gi, entry (c_joins c) n k = Some (stored gi) -> invite_ok gi -> GroupInvite_Token gi <> t) ->
  (forall k v, entry (c_joins c) n k = Some v -> exists gi, invite_ok gi /\ v = stored gi) ->
  GroupInvite_Name gi2 = n -> GroupInvite_Token gi2 = t ->
  gstep s c (RInvite who gi2 true) o2 c2 -> gstep s c2 (CJoin n t w) o c' -> o = error /\ c' = c2.
Proof.
  intros s c n t w o c' who gi1 gi2 o2 c2 S Id Ok1 Ok2 Cl NE E No All N T [_ (ok & f' & A & ->)] H.
  apply join_add_spec in A; auto; try now rewrite N. destruct A as [S' A].
  destruct ok; destruct A as [A1 A]; [rewrite N in A1; congruence|].
  cbn [gstep] in H. unfold gc_join in H. destruct (mhas _ _); auto. destruct H as (r & G & H). destruct r as [from|]; auto. exfalso.
  cbn [set_joins c_joins] in G. unfold get_join in G. pose proof (existing_sound _ S') as X. destruct (db_existing f') as [d|] eqn:D; [|discriminate].
  destruct X as (W & _ & L & _). destruct G as (k & v & i & I & Fi & _). apply (records_entry _ _ _ _ _ D W) in I. rewrite L, A in I.
  destruct (All _ _ I) as (gi & Ok & ->). cbn [snd] in Fi. rewrite stored_round in Fi by auto. apply N.eqb_eq in Fi. eapply No; eauto.
Qed.
Print Assumptions C55_again_refuted.

(** Finding: the name comes from the inviter and is written as it is.  One
    invitation of any contact to a group named with a line break makes the file
    unreadable; from then on no group can be joined, and no invitation is
    accepted, also after a restart. *)
Definition broken (file : option bytes) : Prop := exists f, file = Some f /\ parse f = None.

Lemma broken_step s c e o c' : broken (c_joins c) -> gstep s c e o c' ->
  broken (c_joins c') /\ match e with CJoin _ _ _ => o = error /\ c' = c | RInvite _ _ _ => c' = c | _ => True end.
Proof.
  intros (f & E & P) H. pose proof (step_joins _ _ _ _ _ H) as J.
  destruct e; try (rewrite J; split; [exists f; auto|exact I]).
  - assert (Q : o = error /\ c' = c); [|destruct Q as [-> ->]; split; [exists f; auto|auto]].
    cbn [gstep] in H. unfold gc_join in H. destruct (mhas _ _); auto. destruct H as (r & G & H). unfold get_join, db_existing in G.
    rewrite E, P in G. subst r. auto.
  - cbn [gstep] in H. destruct H as [_ H]. destruct known.
    + destruct H as (ok & f' & A & ->). unfold join_db_add, db_open in A. rewrite E, P in A. destruct A as [_ ->].
      split; [exists f; auto|]. unfold set_joins. rewrite <- E. now destruct c.
    + subst c'. split; [exists f; auto|auto].
Qed.

Theorem C55_name_refuted : forall s h c who gi a b o c1 h2 c2 n t w o2 c3,
  grun s new_client h c -> Forall (fun x => harmless (fst x)) h -> identity who -> invite_ok gi ->
  GroupInvite_Name gi = a ++ LF :: b -> clean a -> a <> [] -> ~ In EQ a -> last a 0 <> RBR ->
  gstep s c (RInvite who gi true) o c1 -> grun s c1 h2 c2 ->
  gstep s c2 (CJoin n t w) o2 c3 -> o2 = error /\ c3 = c2.
Proof.
  intros s h c who gi a b o c1 h2 c2 n t w o2 c3 R F Id Ok N Ca NE NQ NR St R2 H.
  destruct (run_tracked _ _ _ R F) as [S T].
  assert (B1 : broken (c_joins c1)).
  { destruct St as [_ (ok & f' & A & ->)]. cbn [set_joins c_joins]. unfold join_db_add in A.
    destruct (open_sound _ S) as (f & d & t0 & E & NF & W & CD & L & Rn & EF). rewrite E in A.
    rewrite get_lookup, L in A. destruct (entry (c_joins c) (GroupInvite_Name gi) (hex_encode who)) as [v|] eqn:En.
    - exfalso. rewrite N in En. rewrite <- L in En. unfold lookup in En. destruct (mget (db_tables d) (a ++ LF :: b)) as [r|] eqn:M; [|discriminate].
      apply mget_In in M. unfold clean_db in CD. rewrite Forall_forall in CD. destruct (CD _ M) as [[[C1 _] _] _]. cbn [fst] in C1.
      apply C1, in_or_app. right. now left.
    - destruct A as [_ (f2 & SV & ->)]. exists f2. split; auto. unfold saved, put_record in SV.
      destruct (put_lookup d (GroupInvite_Name gi) (hex_encode who) (stored gi)) as (D & _). unfold stored in D. rewrite D in SV. clear D.
      destruct SV as (order & It & ->). rewrite N in It.
      assert (In0 : exists rs, In (a ++ LF :: b, rs) order /\ (forall x, In x order -> fst x <> a ++ LF :: b -> clean_table x)).
      { set (V := b64_encode (enc GroupInvite_codec gi)) in *. set (K := hex_encode who) in *. destruct It as (mid & Pm & F2).
        assert (Ts : forall x, In x mid -> fst x <> a ++ LF :: b -> clean_table x).
        { intros x I Q. eapply Permutation.Permutation_in in I; [|symmetry; exact Pm].
          assert (Z : forall m (y : section), In x (mset m (a ++ LF :: b) y) -> (In x m)).
          { intros m y I0. clear - I0 Q. induction m as [|[k0 v0] m IH]; cbn [mset] in I0.
            - destruct I0 as [<-|[]]. cbn in Q. congruence.
            - destruct (eqb_spec (a ++ LF :: b) k0) as [Z|Z]; destruct I0 as [<-|I0]; [exfalso; apply Q; reflexivity|now right|now left|right; auto]. }
          unfold clean_db in CD. rewrite Forall_forall in CD. apply CD.
          unfold ini_set, ini_new_table, ensure in I. cbn [db_tables] in I. destruct (mget (db_tables d) (a ++ LF :: b)) as [s0|] eqn:E0.
          - rewrite E0 in I. cbn [fst db_tables] in I. now apply Z in I.
          - cbn [db_tables] in I. rewrite mget_mset_eq in I. cbn [fst db_tables] in I. now apply Z, Z in I. }
        assert (Tn : exists s1, In (a ++ LF :: b, s1) mid).
        { destruct (put_lookup d (a ++ LF :: b) K V) as (_ & _ & _ & Lk). specialize (Lk (a ++ LF :: b) K). rewrite !eqb_refl in Lk. cbn [andb] in Lk.
          unfold lookup in Lk. destruct (mget _ (a ++ LF :: b)) as [s1|] eqn:E1 in Lk; [|discriminate]. exists s1. apply mget_In in E1.
          eapply Permutation.Permutation_in; [exact Pm|exact E1]. }
        destruct Tn as [s1 I1]. clear - F2 Ts I1. revert I1 Ts. induction F2 as [|x y m l [Q Pq] F2 IH]; intros I1 Ts; [destruct I1|].
        assert (Cy : fst y <> a ++ LF :: b -> clean_table y).
        { intros Qy. rewrite <- Q in Qy. specialize (Ts x (or_introl eq_refl) Qy). destruct Ts as [T1 T2]. split; [now rewrite <- Q|].
          eapply Permutation.Permutation_Forall; eauto. }
        assert (Tm : exists rs, In (a ++ LF :: b, rs) (y :: l)).
        { destruct I1 as [->|I1]; [exists (snd y); left; destruct y; cbn in *; congruence|].
          destruct (IH I1) as (rs & I & _); [intros x0 I0; apply Ts; now right|]. exists rs. now right. }
        destruct Tm as [rs Tm]. exists rs. split; auto.
        intros x0 [<-|I0]; auto. clear IH. intros Qx.
        assert (exists x1, In x1 m /\ fst x1 = fst x0 /\ Permutation.Permutation (snd x1) (snd x0)) as (x1 & J1 & J2 & J3).
        { clear - F2 I0. induction F2 as [|u v m l Huv F2 IH]; [destruct I0|]. destruct I0 as [<-|I0]; [exists u; split; [now left|exact Huv]|].
          destruct (IH I0) as (x1 & J & K). exists x1. split; [now right|auto]. }
        rewrite <- J2 in Qx. specialize (Ts x1 (or_intror J1) Qx). destruct Ts as [T1 T2]. split; [now rewrite <- J2|].
        eapply Permutation.Permutation_Forall; eauto. }
      destruct In0 as (rs & I0 & Cx).
      assert (Sp : exists pre rs' post, order = pre ++ (a ++ LF :: b, rs') :: post /\ Forall clean_table pre).
      { clear - I0 Cx. induction order as [|x l IH]; [destruct I0|].
        destruct (eqb_spec (fst x) (a ++ LF :: b)) as [Q|Q].
        - exists [], (snd x), l. split; [|constructor]. destruct x as [x1 x2]. cbn [fst snd app] in *. now rewrite Q.
        - destruct I0 as [->|I0]; [cbn in Q; congruence|]. destruct IH as (pre & rs' & post & -> & Fp); auto.
          { intros y Iy. apply Cx. now right. }
          exists (x :: pre), rs', post. split; auto. constructor; auto. apply Cx; auto. now left. }
      destruct Sp as (pre & rs' & post & -> & Fp). apply newline_name_unopenable; auto. }
  assert (B2 : broken (c_joins c2)).
  { clear H. induction R2 as [|h2 c2 e oo c4 R2 IH S2]; auto. eapply broken_step; eauto. }
  destruct (broken_step _ _ _ _ _ B2 H) as [_ Q]. exact Q.
Qed.
Print Assumptions C55_name_refuted.

(** Finding: a name that closes the bracket writes records of others.  Carol forges
    an invitation of Bob to the club. *)
Definition forged_name : bytes :=
  bs "x]" ++ LF :: bs "[" ++ club ++ bs "]" ++ LF :: hex_encode bob ++ bs "=" ++ stored (mkGroupInvite club [] 7 [] 9) ++ LF :: bs "[y".
Theorem C55_forged_refuted : exists c1 c2 o,
  gstep self0 new_client (RInvite carol (mkGroupInvite forged_name [] 1 [] 9) true) fine c1 /\
  gstep self0 c1 (CJoin club 7 Written) o c2 /\ o_sent o = [(bob, GJoin (mkGroupJoin club 7 []))].
Proof.
  set (gi := mkGroupInvite forged_name [] 1 [] 9).
  set (d := put_record ini_fresh gi carol).
  set (f1 := render (db_tables d)).
  assert (P : parse f1 = Some [(bs "x", []); (club, [(hex_encode bob, stored (mkGroupInvite club [] 7 [] 9))]); (bs "y", [(hex_encode carol, stored gi)]); ([], [])]).
  { vm_compute. reflexivity. }
  set (d1 := opened [(bs "x", []); (club, [(hex_encode bob, stored (mkGroupInvite club [] 7 [] 9))]); (bs "y", [(hex_encode carol, stored gi)]); ([], [])] false) in *.
  set (g := mkGroupList club 0 0 [bob]).
  set (c1 := mkGclient [] [] None (Some f1) []).
  set (f2 := render (db_tables (fst (ini_del_table d1 club)))).
  exists c1, (mkGclient [(club, g)] [(club, enc GroupList_codec g)] None (Some f2) []), (done true [(bob, GJoin (mkGroupJoin club 7 []))]).
  split; [|split; [|reflexivity]].
  - cbn [gstep]. split; auto. exists true, (Some f1). split; [|reflexivity]. unfold join_db_add. cbn [new_client c_joins db_open].
    change (ini_get ini_fresh (GroupInvite_Name gi) (hex_encode carol)) with (Err (A:=bytes) ErrNotFound). split; auto.
    exists f1. split; auto. unfold saved. fold d. change (db_dirty d) with true. exists (db_tables d). split; [apply iterates_refl|reflexivity].
  - cbn [gstep]. unfold gc_join. change (mhas (c_groups c1) club) with false. cbv iota. exists (Some bob). split.
    + unfold get_join. cbn [c1 c_joins db_existing]. rewrite P. exists (hex_encode bob), (stored (mkGroupInvite club [] 7 [] 9)), bob.
      split; [now left|]. split; [vm_compute; reflexivity|]. split; vm_compute; reflexivity.
    + change (save_group (set_groups c1 (mset (c_groups c1) club (mkGroupList club 0 0 [bob]))) club Written)
        with (mkGclient [(club, g)] [(club, enc GroupList_codec g)] None (Some f1) [], true). cbn [negb].
      exists true, (Some f2). split; [|split; reflexivity]. unfold del_join. cbn [c_joins db_existing]. rewrite P.
      change (ini_records (opened [(bs "x", []); (club, [(hex_encode bob, stored (mkGroupInvite club [] 7 [] 9))]); (bs "y", [(hex_encode carol, stored gi)]); ([], [])] false) club)
        with [(hex_encode bob, stored (mkGroupInvite club [] 7 [] 9))]. cbv iota.
      assert (U : unmarshal_invite (stored (mkGroupInvite club [] 7 [] 9)) = Some (mkGroupInvite club [] 7 [] 9)) by (vm_compute; reflexivity).
      rewrite U. cbn [GroupInvite_Token]. rewrite N.eqb_refl. split; auto. exists f2. split; auto. unfold saved. fold d1.
      change (db_dirty (fst (ini_del_table d1 club))) with true. eexists. split; [apply iterates_refl|reflexivity].
Qed.
Print Assumptions C55_forged_refuted.

(** An invitation of Bob to the club is recorded, and joining asks Bob. *)
Example C55_case : harmless (RInvite bob (gi0 7) true) /\
  exists c1 c2 o, gstep self0 new_client (RInvite bob (gi0 7) true) fine c1 /\ gstep self0 c1 (CJoin club 7 Written) o c2 /\
    o_sent o = [(bob, GJoin (mkGroupJoin club 7 []))].
Proof.
  assert (Hm : harmless (RInvite bob (gi0 7) true)).
  { split; [split; [reflexivity|vm_compute; repeat constructor]|]. split; [apply gi0_ok; reflexivity|].
    split; [apply valid_clean; reflexivity|discriminate]. }
  split; auto.
  set (d := put_record ini_fresh (gi0 7) bob). set (f1 := render (db_tables d)).
  assert (P : parse f1 = Some [(club, [(hex_encode bob, stored (gi0 7))]); ([], [])]) by (vm_compute; reflexivity).
  set (d1 := opened [(club, [(hex_encode bob, stored (gi0 7))]); ([], [])] false).
  set (g := mkGroupList club 0 0 [bob]). set (c1 := mkGclient [] [] None (Some f1) []).
  set (f2 := render (db_tables (fst (ini_del_table d1 club)))).
  exists c1, (mkGclient [(club, g)] [(club, enc GroupList_codec g)] None (Some f2) []), (done true [(bob, GJoin (mkGroupJoin club 7 []))]).
  split; [|split; [|reflexivity]].
  - cbn [gstep]. split; auto. exists true, (Some f1). split; [|reflexivity]. unfold join_db_add. cbn [new_client c_joins db_open].
    change (ini_get ini_fresh (GroupInvite_Name (gi0 7)) (hex_encode bob)) with (Err (A:=bytes) ErrNotFound). split; auto.
    exists f1. split; auto. unfold saved. fold d. change (db_dirty d) with true. exists (db_tables d). split; [apply iterates_refl|reflexivity].
  - cbn [gstep]. unfold gc_join. change (mhas (c_groups c1) club) with false. cbv iota. exists (Some bob). split.
    + unfold get_join. cbn [c1 c_joins db_existing]. rewrite P. exists (hex_encode bob), (stored (gi0 7)), bob.
      split; [now left|]. split; [vm_compute; reflexivity|]. split; vm_compute; reflexivity.
    + change (save_group (set_groups c1 (mset (c_groups c1) club (mkGroupList club 0 0 [bob]))) club Written)
        with (mkGclient [(club, g)] [(club, enc GroupList_codec g)] None (Some f1) [], true). cbn [negb].
      exists true, (Some f2). split; [|split; reflexivity]. unfold del_join. cbn [c_joins db_existing]. rewrite P. fold d1.
      change (ini_records d1 club) with [(hex_encode bob, stored (gi0 7))]. cbv iota.
      rewrite (stored_round (gi0 7)) by (apply gi0_ok; reflexivity). change (GroupInvite_Token (gi0 7)) with 7.
      rewrite N.eqb_refl. split; auto. exists f2. split; auto. unfold saved.
      change (db_dirty (fst (ini_del_table d1 club))) with true. eexists. split; [apply iterates_refl|reflexivity].
Qed.
