(** The logs of conversations. *)
From Verif Require Import Base XdrModel XdrProofs RpcModel AddrModel HexModel UiModel WinModel WinProofs BlobProps AcctProofs LogModel WinProps.
From Coq Require Import Lia.
Local Open Scope N_scope.

(** * C70 *)

Definition no_slash (s : bytes) : Prop := ~ In 47 s.

Lemma split_slash_none : forall t acc, no_slash t -> split_slash acc t = [rev acc ++ t].
Proof.
  induction t as [|c t IH]; intros acc H; cbn [split_slash]; [now rewrite app_nil_r|].
  destruct (eqb_spec c 47) as [->|]; [exfalso; apply H; left; auto|].
  rewrite IH by (intros X; apply H; right; auto). cbn. now rewrite <- app_assoc.
Qed.

Lemma split_slash_last : forall a t acc, no_slash t ->
  exists init l, split_slash acc (a ++ t) = init ++ [l ++ t].
Proof.
  induction a as [|c a IH]; intros t acc H.
  - cbn [app]. rewrite split_slash_none by auto. exists [], (rev acc). reflexivity.
  - cbn [app split_slash]. destruct (eqb c 47).
    + destruct (IH t [] H) as (init & l & ->). exists (rev acc :: init), l. reflexivity.
    + apply IH. auto.
Qed.

Lemma walk_long : forall d x, (2 < length x)%nat -> walk d x = x :: d.
Proof.
  intros d x H. unfold walk.
  destruct (eqb_spec x []) as [->|]; [cbn in H; lia|]. destruct (eqb_spec x (bs ".")) as [->|]; [cbn in H; lia|].
  destruct (eqb_spec x (bs "..")) as [->|]; [cbn in H; lia|]. reflexivity.
Qed.

Lemma join_last : forall dir a t, no_slash t -> (2 < length t)%nat ->
  exists l d, join dir (a ++ t) = (l ++ t) :: d.
Proof.
  intros dir a t H L. destruct (split_slash_last a t [] H) as (init & l & E).
  exists l, (fold_left walk init dir). unfold join. rewrite E, fold_left_app. cbn [fold_left].
  apply walk_long. rewrite app_length. lia.
Qed.

Lemma join_plain : forall dir t, no_slash t -> (2 < length t)%nat -> join dir t = t :: dir.
Proof.
  intros. unfold join. rewrite split_slash_none by auto. cbn [rev app fold_left]. apply walk_long. auto.
Qed.

Lemma app_tail : forall {A} (a b c d : list A), a ++ b = c ++ d -> length b = length d -> a = c /\ b = d.
Proof.
  intros A a. induction a; intros b c d E L.
  - destruct c; cbn in *; [auto|]. subst b. cbn in L. rewrite app_length in L. lia.
  - destruct c; cbn in E.
    + subst d. cbn in L. rewrite app_length in L. lia.
    + inversion E; subst. destruct (IHa _ _ _ H1 L). subst. auto.
Qed.

Lemma hex_digits : forall b c, In c (hex_encode b) -> 48 <= c.
Proof.
  intros b c H. unfold hex_encode in H. apply in_flat_map in H as (x & _ & H).
  assert (D : forall n, 48 <= hex_digit n). { intros n. unfold hex_digit. destruct (n <? 10); lia. }
  cbn in H. destruct H as [<-|[<-|[]]]; apply D.
Qed.

Lemma hex_len : forall b, length (hex_encode b) = (2 * length b)%nat.
Proof. induction b; cbn; auto. unfold hex_encode in *. cbn. lia. Qed.

(** A server's name without a slash and shorter than 64 bytes. *)
Definition host_ok (srv : bytes) : Prop := no_slash srv /\ (length srv < 64)%nat.
(** A contact's window (any nick) or a group's (a valid name). *)
Definition filed (w : win) : Prop :=
  if w_group w then valid_name (w_nick w) = true
  else Forall is_byte (ident (w_pub w)) /\ length (ident (w_pub w)) = 32%nat.
Definition same_partner (v w : win) : Prop :=
  w_group v = w_group w /\ (if w_group v then w_nick v = w_nick w else ident (w_pub v) = ident (w_pub w)).

Lemma contact_name : forall dir srv w, no_slash srv -> w_group w = false ->
  exists l d, log_file dir srv w = (l ++ (bs "." ++ srv ++ bs "." ++ hex_encode (ident (w_pub w)) ++ bs ".log")) :: d.
Proof.
  intros dir srv w Hs Hg. unfold log_file, log_name. rewrite Hg. apply join_last.
  - intros X. rewrite !in_app_iff in X.
    destruct X as [X|[X|[X|[X|X]]]]; [| | |apply hex_digits in X; lia|]; try (cbn in X; intuition discriminate). auto.
  - rewrite !app_length. cbn. lia.
Qed.

Lemma valid_no_slash : forall g, valid_name g = true -> no_slash g.
Proof.
  intros g H X. unfold valid_name in H. rewrite forallb_forall in H. apply H in X. vm_compute in X. discriminate.
Qed.

Lemma group_name : forall dir srv w, no_slash srv -> w_group w = true -> valid_name (w_nick w) = true ->
  log_file dir srv w = (bs "groupchat." ++ w_nick w ++ bs "." ++ srv ++ bs ".log") :: dir.
Proof.
  intros dir srv w Hs Hg Hv. unfold log_file, log_name. rewrite Hg. apply join_plain.
  - intros X. rewrite !in_app_iff in X. apply valid_no_slash in Hv.
    destruct X as [X|[X|[X|[X|X]]]]; auto; cbn in X; intuition discriminate.
  - rewrite app_length. cbn. lia.
Qed.

Lemma group_not_contact : forall dir srv v w, host_ok srv -> filed v -> filed w -> w_group v = true -> w_group w = false ->
  log_file dir srv v <> log_file dir srv w.
Proof.
  intros dir srv v w [Hs Hl] Fv Fw Gv Gw E. unfold filed in *. rewrite Gv in Fv. rewrite Gw in Fw. destruct Fw as [Fb Fl].
  rewrite group_name in E by auto. destruct (contact_name dir srv w Hs Gw) as (l & d & X). rewrite X in E.
  set (h := hex_encode (ident (w_pub w))) in *.
  assert (Lh : length h = 64%nat) by (unfold h; rewrite hex_len, Fl; reflexivity).
  injection E as E _.
  assert (E1 : (bs "groupchat." ++ w_nick v) ++ (bs "." ++ srv) ++ bs ".log" = (l ++ bs "." ++ srv ++ bs ".") ++ h ++ bs ".log").
  { cbn in E |- *. rewrite <- !app_assoc in *. cbn in *. rewrite <- ?app_assoc. exact E. }
  rewrite !app_assoc in E1. apply app_inv_tail in E1. rewrite <- !app_assoc in E1.
  rewrite <- (firstn_skipn (64 - length (bs "." ++ srv)) h) in E1.
  rewrite !app_assoc in E1. rewrite <- (app_assoc _ (bs ".") srv) in E1.
  apply app_tail in E1 as [_ E1].
  - assert (I : In 46 h). { rewrite <- (firstn_skipn (64 - length (bs "." ++ srv)) h). apply in_or_app. right. rewrite <- E1. left. reflexivity. }
    apply hex_digits in I. lia.
  - rewrite skipn_length, Lh. change (length (bs "." ++ srv)) with (S (length srv)). lia.
Qed.

(** Two windows that log to the same file are of the same contact or the same group,
    whatever nicks the contacts have chosen. *)
Theorem C70_own : forall dir srv v w, host_ok srv -> filed v -> filed w ->
  log_file dir srv v = log_file dir srv w -> same_partner v w.
Proof.
  intros dir srv v w Hh Fv Fw E. unfold same_partner.
  destruct (w_group v) eqn:Gv, (w_group w) eqn:Gw.
  - split; [auto|]. destruct Hh as [Hs _]. unfold filed in *. rewrite Gv in Fv. rewrite Gw in Fw.
    rewrite !group_name in E by auto. apply (f_equal (hd [])) in E. cbn [hd] in E.
    apply app_inv_head in E. apply app_inv_tail in E. exact E.
  - exfalso. exact (group_not_contact dir srv v w Hh Fv Fw Gv Gw E).
  - exfalso. exact (group_not_contact dir srv w v Hh Fw Fv Gw Gv (eq_sym E)).
  - split; [auto|]. destruct Hh as [Hs _]. unfold filed in *. rewrite Gv in Fv. rewrite Gw in Fw.
    destruct Fv as [Bv Lv], Fw as [Bw Lw].
    destruct (contact_name dir srv v Hs Gv) as (l & d & X). destruct (contact_name dir srv w Hs Gw) as (l' & d' & Y).
    rewrite X, Y in E. apply (f_equal (hd [])) in E. cbn [hd] in E. rewrite !app_assoc in E. apply app_inv_tail in E.
    rewrite <- !app_assoc in E. rewrite !app_assoc in E.
    apply app_tail in E as [_ E]; [|rewrite !hex_len; lia]. apply hex_inj; auto.
Qed.
Print Assumptions C70_own.

(** A contact without a slash in the nick is logged in the directory of logs itself;
    so is a group. *)
Theorem C70_inside : forall dir srv w, host_ok srv -> filed w -> (w_group w = false -> no_slash (w_nick w)) ->
  log_file dir srv w = log_name srv w :: dir.
Proof.
  intros dir srv w [Hs _] F N. unfold filed in F. destruct (w_group w) eqn:G.
  - unfold log_name. rewrite G. apply group_name; auto.
  - unfold log_file. apply join_plain; unfold log_name; rewrite G.
    + intros X. rewrite !in_app_iff in X.
      destruct X as [X|[X|[X|[X|[X|X]]]]]; [exact (N eq_refl X)| | | |apply hex_digits in X; lia|]; try (cbn in X; intuition discriminate). auto.
    + rewrite !app_length. cbn. lia.
Qed.
Print Assumptions C70_inside.

(** But a contact can have itself logged in any directory there is, by its nick: [up]
    is how to get from the directory of the logs to the root. *)
Fixpoint ups (n : nat) : bytes := match n with O => [] | S m => bs "../" ++ ups m end.
Fixpoint downs (t : list bytes) : bytes := match t with [] => [] | c :: r => c ++ bs "/" ++ downs r end.
Definition comp_ok (c : bytes) : Prop := no_slash c /\ c <> [] /\ c <> bs "." /\ c <> bs "..".

Lemma split_comp : forall c r, no_slash c -> split_slash [] (c ++ 47 :: r) = c :: split_slash [] r.
Proof.
  intros c r H. assert (G : forall acc, split_slash acc (c ++ 47 :: r) = (rev acc ++ c) :: split_slash [] r).
  { induction c as [|x c IH]; intros acc; cbn [app split_slash].
    - rewrite app_nil_r. reflexivity.
    - destruct (eqb_spec x 47) as [->|]; [exfalso; apply H; left; auto|].
      rewrite IH by (intros X; apply H; right; auto). cbn. now rewrite <- app_assoc. }
  apply G.
Qed.

Lemma join_ups : forall n dir r, (length dir <= n)%nat -> join dir (ups n ++ r) = join [] r.
Proof.
  induction n; intros dir r L.
  - destruct dir; [reflexivity|cbn in L; lia].
  - change (ups (S n) ++ r) with (bs ".." ++ 47 :: (ups n ++ r)). unfold join. rewrite split_comp.
    + cbn [fold_left]. change (walk dir (bs "..")) with (tl dir). apply IHn. destruct dir; cbn in *; lia.
    + intros X. cbn in X. intuition discriminate.
Qed.

Lemma join_downs : forall t dir r, Forall comp_ok t -> join dir (downs t ++ r) = join (rev t ++ dir) r.
Proof.
  induction t as [|c t IH]; intros dir r H; [reflexivity|]. inversion H as [|? ? (N & N0 & N1 & N2) Ft]; subst.
  cbn [downs]. replace ((c ++ bs "/" ++ downs t) ++ r) with (c ++ 47 :: (downs t ++ r)) by (rewrite <- app_assoc; reflexivity).
  unfold join. rewrite split_comp by auto. cbn [fold_left].
  replace (walk dir c) with (c :: dir).
  - fold (join (c :: dir) (downs t ++ r)). rewrite IH by auto. cbn [rev]. rewrite <- app_assoc. reflexivity.
  - unfold walk. destruct (eqb_spec c []); [congruence|]. destruct (eqb_spec c (bs ".")); [congruence|].
    destruct (eqb_spec c (bs "..")); [congruence|]. reflexivity.
Qed.

Theorem C70_anywhere_refuted : forall dir srv target id, host_ok srv -> Forall comp_ok target ->
  Forall is_byte id -> length id = 32%nat ->
  exists p, ident p = id /\
    log_file dir srv (contact_win p (ident p)) = (bs "." ++ srv ++ bs "." ++ hex_encode id ++ bs ".log") :: rev target.
Proof.
  intros dir srv target id [Hs _] Ht Hb Hl.
  exists (mkPublicIdentity [] (ups (S (length dir)) ++ downs target) [] [] id [] []). split; [reflexivity|].
  unfold log_file, log_name. cbn [w_group w_nick contact_win w_pub].
  change (ident (mkPublicIdentity [] (ups (S (length dir)) ++ downs target) [] [] id [] [])) with id.
  replace (shown_nick _ id) with (ups (S (length dir)) ++ downs target) by reflexivity.
  rewrite <- app_assoc, join_ups by lia. rewrite join_downs by auto. rewrite app_nil_r. apply join_plain.
  - intros X. rewrite !in_app_iff in X.
    destruct X as [X|[X|[X|[X|X]]]]; [| | |apply hex_digits in X; lia|]; try (cbn in X; intuition discriminate). auto.
  - rewrite !app_length. cbn. lia.
Qed.
Print Assumptions C70_anywhere_refuted.

(** ** What the files say *)

Definition one_line (s : bytes) : Prop := ~ In 10 s.

Lemma lines_acc : forall s acc r, one_line s -> lines acc (s ++ 10 :: r) = (rev acc ++ s) :: lines [] r.
Proof.
  induction s as [|c s IH]; intros acc r H; cbn [app lines].
  - rewrite N.eqb_refl, app_nil_r. reflexivity.
  - destruct (N.eqb_spec c 10) as [->|]; [exfalso; apply H; left; auto|].
    rewrite IH by (intros X; apply H; right; auto). cbn. rewrite <- app_assoc. reflexivity.
Qed.

Lemma lines_concat : forall ls, Forall one_line ls -> lines [] (flat_map (fun l => l ++ [10]) ls) = ls.
Proof.
  induction ls; intros H; [reflexivity|]. inversion H; subst. cbn [flat_map].
  rewrite <- app_assoc. cbn [app]. rewrite lines_acc by auto. cbn. f_equal. auto.
Qed.

(** A file that can be written: its directory is there, and it is no directory. *)
Definition writable (d : disk) (f : list bytes) : bool := mem (tl f) (d_dirs d) && negb (mem f (d_dirs d)).

Lemma logs_dirs : forall unesc dir srv h d, d_dirs (logs unesc dir srv d h) = d_dirs d.
Proof.
  induction h as [|e h IH]; intros d; cbn; auto. unfold logs in IH. rewrite IH. unfold log1.
  destruct (_ && _)%bool; reflexivity.
Qed.

Lemma logs_content : forall unesc dir srv h d f, writable d f = true ->
  content (logs unesc dir srv d h) f =
  content d f ++ flat_map (fun e => unesc (snd e) ++ [10]) (filter (fun e => eqb (log_file dir srv (fst e)) f) h).
Proof.
  induction h as [|e h IH]; intros d f W; cbn [logs fold_left filter flat_map]; [rewrite app_nil_r; auto|].
  fold (logs unesc dir srv (log1 unesc dir srv d e) h).
  assert (W' : writable (log1 unesc dir srv d e) f = true).
  { unfold writable in *. replace (d_dirs (log1 unesc dir srv d e)) with (d_dirs d); [exact W|].
    clear. unfold log1. destruct (_ && _)%bool; reflexivity. }
  rewrite IH by auto. unfold log1.
  destruct (eqb_spec (log_file dir srv (fst e)) f) as [->|N].
  - fold (writable d f). rewrite W. cbn [flat_map]. unfold content at 1. cbn [d_files]. rewrite mget_mset_eq.
    rewrite <- app_assoc. reflexivity.
  - destruct (_ && _)%bool; [|reflexivity]. unfold content at 1. cbn [d_files]. rewrite mget_mset_ne by auto. reflexivity.
Qed.

(** A file that was empty, read line by line, has exactly the lines of its own contact or
    group, in the order in which they were printed, if no line has a line feed or an
    escape sequence in it and each contact keeps one nick. *)
Theorem C70_lines : forall unesc dir srv d h w,
  host_ok srv -> filed w -> Forall (fun e => filed (fst e)) h ->
  (forall s, ~ In 27 s -> unesc s = s) ->
  Forall (fun e => one_line (snd e) /\ ~ In 27 (snd e)) h ->
  (forall e, In e h -> same_partner (fst e) w -> w_nick (fst e) = w_nick w) ->
  writable d (log_file dir srv w) = true -> content d (log_file dir srv w) = [] ->
  exists own, lines [] (content (logs unesc dir srv d h) (log_file dir srv w)) = map snd own /\
    (forall e, In e own <-> In e h /\ same_partner (fst e) w) /\
    own = filter (fun e => eqb (log_file dir srv (fst e)) (log_file dir srv w)) h.
Proof.
  intros unesc dir srv d h w Hh Fw Fh Un Ln Nk Wr Em.
  exists (filter (fun e => eqb (log_file dir srv (fst e)) (log_file dir srv w)) h). split; [|split; [|reflexivity]].
  - rewrite logs_content, Em by auto. cbn [app].
    set (o := filter _ h).
    assert (Lo : Forall (fun e => one_line (snd e) /\ ~ In 27 (snd e)) o).
    { rewrite Forall_forall in *. intros e He. apply filter_In in He as [He _]. auto. }
    clearbody o. clear - Lo Un.
    replace (flat_map (fun e : win * bytes => unesc (snd e) ++ [10]) o) with (flat_map (fun l => l ++ [10]) (map snd o)).
    + apply lines_concat. rewrite Forall_map. eapply Forall_impl; [|exact Lo]. cbn. tauto.
    + induction o; cbn; auto. inversion Lo as [|? ? [_ H] ?]; subst. rewrite (Un _ H), IHo; auto.
  - intros e. rewrite filter_In. rewrite Forall_forall in Fh. split; intros [I E]; (split; [auto|]).
    + apply (proj1 (eqb_eq _ _)) in E. eapply C70_own; eauto.
    + pose proof (Nk e I E) as N. destruct E as [Eg E]. apply (proj2 (eqb_eq _ _)). unfold log_file, log_name.
      rewrite Eg, N. destruct (w_group w) eqn:G; [auto|]. rewrite Eg in E. rewrite E. reflexivity.
Qed.
Print Assumptions C70_lines.

(** Together with C69: a private message that is shown is in the log of the contact it
    came from, and that file is the log of nobody else. *)
Theorem C70_messages : forall me D G o es s unesc show dir srv d f t w,
  good D G o -> Forall (ev_good D G) es -> exec me (start me o) es = Go s -> gently me (start me o) es ->
  host_ok srv -> Forall is_byte f -> length f = 32%nat -> f <> ident me ->
  In (w, Said f t) (s_shown s) ->
  exists v, w = Some v /\ w_group v = false /\ ident (w_pub v) = f /\
    (forall u, filed u -> log_file dir srv u = log_file dir srv v -> same_partner u v) /\
    (writable d (log_file dir srv v) = true ->
     exists before after,
       content (logs unesc dir srv d (entries me show (s_shown s))) (log_file dir srv v) =
       before ++ unesc (show v (Said f t)) ++ [10] ++ after).
Proof.
  intros me D G o es s unesc show dir srv d f t w Ho He H Q Hh Bf Lf Nf I.
  destruct (C69_shown me D G o es s Ho He H) as (_ & X). destruct (X Q) as (X1 & _).
  destruct (X1 _ _ _ I) as (v & -> & A & B). exists v.
  assert (Fv : filed v) by (unfold filed; rewrite A, B; auto).
  split; [auto|]. split; [auto|]. split; [auto|]. split.
  { intros u Fu E. exact (C70_own dir srv u v Hh Fu Fv E). }
  intros W. rewrite logs_content by auto.
  assert (Ie : In (v, show v (Said f t)) (entries me show (s_shown s))).
  { unfold entries. apply in_flat_map. exists (Some v, Said f t). split; [exact I|]. cbn [fst snd].
    unfold is_console. rewrite B. destruct (eqb_spec f (ident me)); [congruence|]. rewrite andb_false_r. left. reflexivity. }
  apply in_split in Ie as (l1 & l2 & ->). rewrite filter_app. cbn [filter fst]. rewrite eqb_refl.
  rewrite flat_map_app. cbn [flat_map snd]. rewrite app_assoc.
  eexists. eexists. f_equal. rewrite <- app_assoc. f_equal.
Qed.
Print Assumptions C70_messages.

(** A message with a line feed: the file is the same as if two messages had been shown,
    the second of which can be anything, with any time and any name in front. *)
Theorem C70_forged_refuted : forall unesc dir srv d w a b,
  (forall s, ~ In 27 s -> unesc s = s) -> ~ In 27 a -> ~ In 27 b ->
  writable d (log_file dir srv w) = true ->
  content (logs unesc dir srv d [(w, a ++ [10] ++ b)]) (log_file dir srv w) =
  content (logs unesc dir srv d [(w, a); (w, b)]) (log_file dir srv w).
Proof.
  intros unesc dir srv d w a b Un Na Nb W. rewrite !logs_content by auto. cbn [filter fst]. rewrite !eqb_refl.
  cbn [flat_map snd]. rewrite (Un a Na), (Un b Nb), Un.
  - rewrite <- !app_assoc. reflexivity.
  - rewrite !in_app_iff. intros [X|[X|X]]; auto. cbn in X. intuition discriminate.
Qed.
Print Assumptions C70_forged_refuted.

(** A contact whose nick leads to a directory that is not there has no log at all. *)
Theorem C70_unlogged_refuted : forall unesc dir srv d id, host_ok srv -> 
  Forall is_byte id -> length id = 32%nat -> (forall x, In x (d_dirs d) -> (length x <= length dir)%nat) ->
  exists p, ident p = id /\
    (forall h, Forall (fun e => fst e = contact_win p id) h -> logs unesc dir srv d h = d).
Proof.
  intros unesc dir srv d id [Hs _] Hb Hl Hd.
  exists (mkPublicIdentity [] (bs "x/") [] [] id [] []). split; [reflexivity|].
  intros h Fh. revert d Hd. induction Fh as [|e h Fe Fh IH]; intros d Hd; [reflexivity|].
  cbn [logs fold_left]. fold (logs unesc dir srv (log1 unesc dir srv d e) h).
  replace (log1 unesc dir srv d e) with d; [apply IH; auto|]. unfold log1. rewrite Fe.
  set (p := mkPublicIdentity [] (bs "x/") [] [] id [] []).
  assert (E : exists l, log_file dir srv (contact_win p id) = l :: bs "x" :: dir).
  { unfold log_file, log_name. cbn [w_group w_nick contact_win w_pub].
    change (shown_nick p id) with (downs [bs "x"]). rewrite join_downs.
    - rewrite join_plain; [eexists; reflexivity| |].
      + change (ident p) with id. intros X. rewrite !in_app_iff in X.
        destruct X as [X|[X|[X|[X|X]]]]; [| | |apply hex_digits in X; lia|]; try (cbn in X; intuition discriminate). auto.
      + rewrite !app_length. cbn. lia.
    - constructor; [|constructor]. unfold comp_ok, no_slash. cbn. repeat split; try discriminate. intuition discriminate. }
  destruct E as (l & ->). cbn [tl].
  destruct (mem (bs "x" :: dir) (d_dirs d)) eqn:M; [|reflexivity].
  exfalso. apply mem_In in M. apply Hd in M. cbn in M. lia.
Qed.
Print Assumptions C70_unlogged_refuted.

(** The log of a group whose name is not a valid one can be that of another group. *)
Theorem C70_group_refuted : forall dir srv g, host_ok srv -> valid_name g = true ->
  log_file dir srv (group_win (bs "/../groupchat." ++ g)) = log_file dir srv (group_win g) /\
  bs "/../groupchat." ++ g <> g.
Proof.
  intros dir srv g [Hs _] Hv. split.
  - rewrite (group_name dir srv (group_win g)) by auto. unfold log_file, log_name. cbn [w_group w_nick group_win].
    replace (bs "groupchat." ++ (bs "/../groupchat." ++ g) ++ bs "." ++ srv ++ bs ".log")
      with (downs [bs "groupchat."] ++ (bs ".." ++ 47 :: (bs "groupchat." ++ g ++ bs "." ++ srv ++ bs ".log"))) by reflexivity.
    rewrite join_downs by (constructor; [|constructor]; unfold comp_ok, no_slash; repeat split; try discriminate; cbn; intuition discriminate).
    unfold join at 1. rewrite split_comp by (unfold no_slash; cbn; intuition discriminate). cbn [fold_left].
    change (walk (rev [bs "groupchat."] ++ dir) (bs "..")) with dir.
    apply join_plain.
    + intros X. rewrite !in_app_iff in X. apply valid_no_slash in Hv.
      destruct X as [X|[X|[X|[X|X]]]]; auto; cbn in X; intuition discriminate.
    + rewrite app_length. cbn. lia.
  - intros E. apply (f_equal (@length N)) in E. rewrite app_length in E. cbn in E. lia.
Qed.
Print Assumptions C70_group_refuted.

(** ** Cases *)

Definition id_unesc : bytes -> bytes := fun s => s.
Definition logdir : list bytes := [bs "logs"; bs ".zkclient"; bs "alice"; bs "home"].
Definition disk0 : disk := mkDisk [logdir; tl logdir; tl (tl logdir); [bs "home"]; []] [].
Definition h1 : list (win * bytes) :=
  [(contact_win bob (ident bob), bs "10:00 <bob> hi"); (group_win (bs "dev"), bs "10:01 <carol> hello");
   (contact_win bob2 (ident bob2), bs "10:02 <bob> I am bob"); (contact_win bob (ident bob), bs "10:03 <bob> bye")].

Lemma h1_filed : Forall (fun e => filed (fst e)) h1.
Proof.
  repeat constructor; vm_compute; auto.
  all: split; [repeat constructor|reflexivity].
Qed.
Lemma host1 : host_ok (bs "zkc.example.com").
Proof. split; [unfold no_slash; cbn; intuition discriminate|cbn; lia]. Qed.

(** Two bobs and a group. *)
Example lines_case : let w := contact_win bob (ident bob) in
  host_ok (bs "zkc.example.com") /\ Forall (fun e => filed (fst e)) h1 /\
  Forall (fun e => one_line (snd e) /\ ~ In 27 (snd e)) h1 /\
  writable disk0 (log_file logdir (bs "zkc.example.com") w) = true /\
  lines [] (content (logs id_unesc logdir (bs "zkc.example.com") disk0 h1) (log_file logdir (bs "zkc.example.com") w)) =
  [bs "10:00 <bob> hi"; bs "10:03 <bob> bye"].
Proof.
  split; [apply host1|]. split; [apply h1_filed|].
  split; [repeat constructor; unfold one_line; cbn; intuition discriminate|].
  split; vm_compute; reflexivity.
Qed.

(** A forged line in the log of the group. *)
Example forged_case :
  content (logs id_unesc logdir (bs "zkc.example.com") disk0
    [(group_win (bs "dev"), bs "10:01 <carol> hello" ++ [10] ++ bs "10:02 <bob> I quit")])
    (log_file logdir (bs "zkc.example.com") (group_win (bs "dev"))) =
  bs "10:01 <carol> hello" ++ [10] ++ bs "10:02 <bob> I quit" ++ [10].
Proof. vm_compute. reflexivity. Qed.

(** A contact called "../inbound/" is logged among the files of the address book. *)
Example outside_case : exists p,
  log_file logdir (bs "h") (contact_win p (ident p)) =
  (bs ".h." ++ hex_encode (ident p) ++ bs ".log") :: bs "inbound" :: tl logdir.
Proof. exists (human 7 (bs "../inbound/")). vm_compute. reflexivity. Qed.
