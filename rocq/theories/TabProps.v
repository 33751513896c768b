(** C91: what the Tab key makes of the command line. *)
From Verif Require Import Base AddrModel IniModel IniDiskProofs UiModel UiProps WinModel WinProps TabModel.
Local Open Scope N_scope.

(** * Words *)
Fixpoint glue (ws : list bytes) : bytes :=
  match ws with [] => [] | [w] => w | w :: r => w ++ 32 :: glue r end.

Lemma split_one : forall w, ~ In 32 w -> split_spaces w = [w].
Proof.
  induction w as [|c w IH]; intros H; [reflexivity|]. cbn [split_spaces].
  destruct (N.eqb_spec c 32) as [->|_]; [destruct H; now left|]. rewrite IH; auto. intros X. apply H. now right.
Qed.
Lemma split_cons : forall w r, ~ In 32 w -> split_spaces (w ++ 32 :: r) = w :: split_spaces r.
Proof.
  induction w as [|c w IH]; intros r H; [reflexivity|]. cbn [split_spaces app].
  destruct (N.eqb_spec c 32) as [->|_]; [destruct H; now left|]. rewrite IH; auto. intros X. apply H. now right.
Qed.
Lemma split_glue : forall s, glue (split_spaces s) = s /\ Forall (fun w => ~ In 32 w) (split_spaces s) /\ split_spaces s <> [].
Proof.
  induction s as [|c s (G & F & N)]; [cbn; repeat constructor; [intros []|discriminate]|]. cbn [split_spaces].
  destruct (N.eqb_spec c 32) as [->|C].
  - split; [|split; [constructor; auto; intros []|discriminate]].
    destruct (split_spaces s) as [|w ws]; [congruence|]. change (32 :: glue (w :: ws) = 32 :: s). now rewrite G.
  - destruct (split_spaces s) as [|w ws]; [congruence|]. split; [|split; [|discriminate]].
    + rewrite <- G. destruct ws; reflexivity.
    + inversion F; subst. constructor; auto. intros [X|X]; auto.
Qed.

(** * The candidates *)
Definition sound (c : completion) : Prop := (c_at c = 0 \/ c_at c < length (c_all c))%nat.

Lemma next_sound c s : sound c -> exists c' o, next c s = Ok (c', o) /\ c_all c' = c_all c /\ sound c' /\ (o = s \/ In o (c_all c)).
Proof.
  unfold sound. remember (c_all c) as all eqn:A. symmetry in A. intros B.
  assert (LK : exists c' o, match first_match 0 all s with
      | Some (i, v) => Ok (mkComp all i (Z.of_nat i), v)
      | None => Ok (mkComp all 0 (-1), s) end = @Ok unit _ (c', o) /\
      c_all c' = all /\ (c_at c' = 0 \/ c_at c' < length (c_all c'))%nat /\ (o = s \/ In o all)).
  { pose proof (first_match_spec s all 0) as F. destruct (first_match 0 all s) as [[i v]|].
    - destruct F as (d & -> & N & _). do 2 eexists. split; [reflexivity|]. split; auto. cbn [c_at c_all Nat.add]. split.
      + right. apply nth_error_Some. congruence.
      + right. eapply nth_error_In; exact N.
    - do 2 eexists. split; [reflexivity|]. auto. }
  unfold next. rewrite A. destruct all as [|f r] eqn:AL.
  - do 2 eexists. split; [reflexivity|]. auto.
  - rewrite <- AL in *. assert (In f all) by (rewrite AL; now left). destruct s as [|x s].
    + do 2 eexists. split; [reflexivity|]. auto.
    + destruct (_ =? _)%Z; auto. destruct (nth_error all (c_at c)) as [v|] eqn:N.
      * destruct (eqb v (x :: s)); auto. destruct (Nat.ltb_spec (c_at c + 1) (length all)) as [L|L].
        -- destruct (nth_error all (c_at c + 1)) as [w|] eqn:W; [|apply nth_error_None in W; lia].
           do 2 eexists. split; [reflexivity|]. cbn. split; auto. split; auto. right. eapply nth_error_In; exact W.
        -- do 2 eexists. split; [reflexivity|]. cbn. auto.
      * apply nth_error_None in N. rewrite AL in *. cbn [length] in *. lia.
Qed.

Lemma sorted_In x l : In x (lex_sort l) <-> In x l.
Proof. split; apply Permutation_in; [|symmetry]; apply lex_sort_perm. Qed.
Lemma sorted_of x l : In x (lex_sort l) -> In x l.
Proof. apply sorted_In. Qed.
Lemma of_sorted x l : In x l -> In x (lex_sort l).
Proof. apply sorted_In. Qed.

(** * What a Tab does, whatever was done before *)

(** The commands whose second word is a contact, as the help names them. *)
Definition takes_nick (c : bytes) : Prop :=
  In c [bs "/msg"; bs "/m"; bs "/info"; bs "/reset"; bs "/q"; bs "/query"; bs "/send"].

(** A contact, or a file, that was there at one of the Tabs. *)
Definition was_nick (ks : list key) (x : bytes) : Prop := exists w, In (KTab w) ks /\ In x (p_nicks w).
Definition was_file (ks : list key) (x : bytes) : Prop := exists w f ef, In (KTab w) ks /\ p_expand w f = Some ef /\ In x (p_glob w ef).

Definition outcome (ks : list key) (w : place) (l l' : bytes) : Prop :=
  l' = l \/
  (exists c a x, takes_nick c /\ ~ In 32 a /\ l = c ++ 32 :: a /\ l' = c ++ 32 :: x /\ was_nick ks x) \/
  (exists n a x, ~ In 32 n /\ ~ In 32 a /\ l = bs "/send" ++ 32 :: n ++ 32 :: a /\ l' = bs "/send" ++ 32 :: n ++ 32 :: x /\
    (was_file ks x \/ p_expand w a = Some x \/ p_expand w a = None /\ x = [])).

Definition fine (ks : list key) (t : tabst) : Prop :=
  match t_ctx t with
  | None => True
  | Some (ModeNick, c) => sound c /\ forall x, In x (c_all c) -> was_nick ks x
  | Some (ModeFile, c) => sound c /\ forall x, In x (c_all c) -> was_file ks x
  end.

Lemma was_nick_more ks k x : was_nick ks x -> was_nick (ks ++ [k]) x.
Proof. intros (w & I & H). exists w. split; auto. apply in_or_app. now left. Qed.
Lemma was_file_more ks k x : was_file ks x -> was_file (ks ++ [k]) x.
Proof. intros (w & f & ef & I & H). exists w, f, ef. split; auto. apply in_or_app. now left. Qed.
Lemma fine_more ks k t : fine ks t -> fine (ks ++ [k]) t.
Proof.
  unfold fine. destruct (t_ctx t) as [[[|] c]|]; auto; intros [S H]; split; auto; intros x X; [apply was_nick_more|apply was_file_more]; auto.
Qed.
Lemma new_sound l : sound (new_comp l). Proof. left. reflexivity. Qed.
Lemma at_tab ks w : In (KTab w) (ks ++ [KTab w]). Proof. apply in_or_app. right. now left. Qed.

Lemma nick_step ks w t a0 a1 : takes_nick a0 -> fine (ks ++ [KTab w]) t -> split_spaces (t_line t) = [a0; a1] ->
  exists t', nick_line w t [a0; a1] = Ok t' /\ fine (ks ++ [KTab w]) t' /\ outcome (ks ++ [KTab w]) w (t_line t) (t_line t').
Proof.
  intros T F E. destruct (split_glue (t_line t)) as (G & W & _). rewrite E in G, W. cbn [glue] in G.
  inversion W as [|? ? W0 W']; subst. inversion W' as [|? ? W1 _]; subst. unfold nick_line, complete_nick.
  set (k := match t_ctx t with Some (ModeNick, k) => k | _ => _ end).
  assert (K : sound k /\ forall x, In x (c_all k) -> was_nick (ks ++ [KTab w]) x).
  { assert (KN : sound (new_comp (lex_sort (p_nicks w))) /\ forall x, In x (c_all (new_comp (lex_sort (p_nicks w)))) -> was_nick (ks ++ [KTab w]) x).
    { split; [apply new_sound|]. intros x X. exists w. split; [apply at_tab|]. apply (proj1 (sorted_In _ _)). exact X. }
    unfold k. unfold fine in F. destruct (t_ctx t) as [[[|] c]|]; auto. }
  destruct K as [KS KI]. destruct (next_sound k a1 KS) as (c' & o & -> & A & S' & O).
  eexists. split; [reflexivity|]. split; [split; auto; intros x; rewrite A; auto|]. cbn [t_line].
  destruct O as [->|O]; [left; exact G|]. right. left. exists a0, a1, o.
  split; [exact T|]. split; [exact W1|]. split; [symmetry; exact G|]. split; [reflexivity|auto].
Qed.

Lemma dir_step ks w t a1 a2 : fine (ks ++ [KTab w]) t -> split_spaces (t_line t) = [bs "/send"; a1; a2] ->
  exists t', dir_line w t [bs "/send"; a1; a2] = Ok t' /\ fine (ks ++ [KTab w]) t' /\ outcome (ks ++ [KTab w]) w (t_line t) (t_line t').
Proof.
  intros F E. destruct (split_glue (t_line t)) as (G & W & _). rewrite E in G, W. cbn [glue] in G.
  inversion W as [|? ? W0 W']; subst. inversion W' as [|? ? W1 W'']; subst. inversion W'' as [|? ? W2 _]; subst.
  unfold dir_line. set (c0 := if restarts a2 then None else t_ctx t).
  assert (F0 : fine (ks ++ [KTab w]) (mkTab (t_line t) c0)) by (unfold c0; destruct (restarts a2); [exact I|exact F]). clearbody c0.
  assert (OUT : forall x, was_file (ks ++ [KTab w]) x \/ p_expand w a2 = Some x \/ p_expand w a2 = None /\ x = [] ->
    outcome (ks ++ [KTab w]) w (t_line t) (bs "/send" ++ bs " " ++ a1 ++ bs " " ++ x)).
  { intros x X. right. right. exists a1, a2, x. split; [exact W1|]. split; [exact W2|].
    split; [symmetry; exact G|]. split; [reflexivity|exact X]. }
  assert (NEW : exists t', match (match p_expand w a2 with None => Ok (None, []) | Some ef =>
        match next (new_comp (lex_sort (p_glob w ef))) ef with Ok (k', s) => Ok (Some (ModeFile, k'), s) | Err e => Err e | Panic => Panic end end) with
      | Ok (c, f) => Ok (mkTab (bs "/send" ++ bs " " ++ a1 ++ bs " " ++ f) c) | Err e => Err e | Panic => Panic end = @Ok unit _ t' /\
      fine (ks ++ [KTab w]) t' /\ outcome (ks ++ [KTab w]) w (t_line t) (t_line t')).
  { destruct (p_expand w a2) as [ef|] eqn:X.
    - destruct (next_sound (new_comp (lex_sort (p_glob w ef))) ef (new_sound _)) as (c' & o & -> & A & S' & O).
      assert (FI : forall x, In x (lex_sort (p_glob w ef)) -> was_file (ks ++ [KTab w]) x).
      { intros x Y. exists w, a2, ef. split; [apply at_tab|]. split; auto. apply (proj1 (sorted_In _ _)). exact Y. }
      eexists. split; [reflexivity|]. split; [split; auto; intros x; rewrite A; apply FI|]. cbn [t_line]. apply OUT.
      destruct O as [->|O]; auto.
    - eexists. split; [reflexivity|]. split; [exact I|]. apply OUT. auto. }
  unfold complete_dir. destruct c0 as [[[|] c]|]; [exact NEW| |exact NEW]. destruct F0 as [S FI].
  destruct (next_sound c a2 S) as (c' & o & -> & A & S' & O).
  eexists. split; [reflexivity|]. split; [split; auto; intros x; rewrite A; apply FI|]. cbn [t_line].
  destruct O as [->|O]; [left; exact G|auto].
Qed.

Lemma tab_step ks w t : fine ks t ->
  exists t', tab w t = Ok t' /\ fine (ks ++ [KTab w]) t' /\ outcome (ks ++ [KTab w]) w (t_line t) (t_line t').
Proof.
  intros F. apply (fine_more _ (KTab w)) in F.
  assert (ID : exists t', @Ok unit _ t = Ok t' /\ fine (ks ++ [KTab w]) t' /\ outcome (ks ++ [KTab w]) w (t_line t) (t_line t'))
    by (exists t; split; auto; split; auto; now left).
  assert (NL : forall a0 r, takes_nick a0 -> split_spaces (t_line t) = a0 :: r ->
    exists t', nick_line w t (a0 :: r) = Ok t' /\ fine (ks ++ [KTab w]) t' /\ outcome (ks ++ [KTab w]) w (t_line t) (t_line t')).
  { intros a0 r T E. destruct r as [|a1 [|a2 r]]; [exact ID|now apply nick_step|exact ID]. }
  unfold tab. destruct (t_line t) as [|x l] eqn:L; [exact ID|]. cbv zeta. rewrite <- L in *.
  destruct (split_spaces (t_line t)) as [|a0 r] eqn:E; [exact ID|].
  destruct (mem a0 nick_commands) eqn:M.
  - apply NL; auto. apply mem_In in M. unfold takes_nick, nick_commands in *. cbn [In] in *. tauto.
  - destruct (eqb_spec a0 (bs "/send")) as [->|_]; [|exact ID].
    destruct (Nat.eqb_spec (length (bs "/send" :: r)) 3) as [L3|_].
    + destruct r as [|a1 [|a2 [|? r]]]; try discriminate. now apply dir_step.
    + destruct (Nat.leb (length (bs "/send" :: r)) 2); [|exact ID]. apply NL; auto. unfold takes_nick. cbn [In]. tauto.
Qed.

Lemma presses_app ks : forall t r, presses t (ks ++ r) = match presses t ks with Ok t' => presses t' r | Err e => Err e | Panic => Panic end.
Proof. induction ks as [|k ks IH]; intros t r; [reflexivity|]. cbn [presses app]. destruct (press t k); auto. Qed.

Lemma presses_fine ks : exists t, presses (mkTab [] None) ks = Ok t /\ fine ks t.
Proof.
  induction ks as [|k ks (t & E & F)] using rev_ind; [eexists; split; [reflexivity|exact I]|].
  rewrite presses_app, E. destruct k as [l|w|]; cbn [presses press].
  - eexists. split; [reflexivity|]. apply (fine_more _ (KType l)) in F. exact F.
  - destruct (tab_step ks w t F) as (t' & -> & F' & _). eauto.
  - destruct (t_line t); eexists; (split; [reflexivity|]); [apply fine_more; auto|exact I].
Qed.

(** Whatever was typed, no Tab panics, and it changes the last word only: the word after a
    command that takes a contact becomes one, and the path after "/send" and a contact
    becomes a file or what it stands for, or goes if that cannot be found out. *)
Theorem C91_frame : forall ks w, exists t t',
  presses (mkTab [] None) ks = Ok t /\ presses (mkTab [] None) (ks ++ [KTab w]) = Ok t' /\
  outcome (ks ++ [KTab w]) w (t_line t) (t_line t').
Proof.
  intros ks w. destruct (presses_fine ks) as (t & E & F). destruct (tab_step ks w t F) as (t' & T & _ & O).
  exists t, t'. split; auto. split; auto. rewrite presses_app, E. cbn [presses press]. now rewrite T.
Qed.
Print Assumptions C91_frame.

(** * The cycle *)
Lemma takes_word c : takes_nick c -> ~ In 32 c /\ c <> [].
Proof. intros H. unfold takes_nick in H. cbn [In] in H. repeat (destruct H as [<-|H]; [split; [cbn; intuition discriminate|discriminate]|]). destruct H. Qed.

Lemma tab_nick w c a ctx : takes_nick c -> ~ In 32 a ->
  tab w (mkTab (c ++ 32 :: a) ctx) = nick_line w (mkTab (c ++ 32 :: a) ctx) [c; a].
Proof.
  intros T H. destruct (takes_word c T) as [B N]. unfold tab. cbn [t_line].
  destruct (c ++ 32 :: a) eqn:L; [destruct c; discriminate|]. rewrite <- L. cbv zeta.
  rewrite split_cons, split_one by auto.
  destruct (mem c nick_commands) eqn:M; auto. apply mem_false in M.
  destruct (eqb_spec c (bs "/send")) as [->|X]; [reflexivity|]. exfalso. apply M. unfold takes_nick, nick_commands in *. cbn [In] in *.
  intuition congruence.
Qed.

Lemma nick_cycle w c : takes_nick c -> forall n k a, sound k -> (forall x, In x (c_all k) -> ~ In 32 x) -> ~ In 32 a ->
  tab_lines n w (mkTab (c ++ 32 :: a) (Some (ModeNick, k))) =
  match tabs n k a with Ok l => Ok (map (fun x => c ++ 32 :: x) l) | Err e => Err e | Panic => Panic end.
Proof.
  intros T. induction n as [|n IH]; intros k a S NB A; [reflexivity|]. cbn [tab_lines tabs].
  rewrite tab_nick by auto. unfold nick_line, complete_nick. cbn [t_ctx].
  destruct (next_sound k a S) as (k' & o & -> & AL & S' & O).
  change (c ++ bs " " ++ o) with (c ++ 32 :: o). rewrite IH; auto.
  - cbn [t_line]. destruct (tabs n k' o); reflexivity.
  - rewrite AL. auto.
  - destruct O as [->|O]; auto.
Qed.

Definition no_nick (c : option (mode * completion)) : Prop := match c with Some (ModeNick, _) => False | _ => True end.

Lemma nick_first w c a ctx n : takes_nick c -> ~ In 32 a -> no_nick ctx ->
  tab_lines n w (mkTab (c ++ 32 :: a) ctx) = tab_lines n w (mkTab (c ++ 32 :: a) (Some (ModeNick, new_comp (lex_sort (p_nicks w))))).
Proof.
  intros T A N. destruct n as [|n]; [reflexivity|]. cbn [tab_lines]. rewrite !tab_nick by auto.
  unfold nick_line, complete_nick. cbn [t_ctx]. destruct ctx as [[[|] k]|]; [destruct N| |]; reflexivity.
Qed.

(** The first Tab after Enter offers the first contact that starts with what is typed, and
    each further one the next in the order of the alphabet, and round. *)
Theorem C91_nick : forall w c a ctx i n, takes_nick c -> ~ In 32 a -> no_nick ctx ->
  (forall x, In x (p_nicks w) -> x <> [] /\ ~ In 32 x) -> begins (lex_sort (p_nicks w)) a i ->
  tab_lines n w (mkTab (c ++ 32 :: a) ctx) =
  Ok (map (fun k => c ++ 32 :: nth ((i + k) mod length (p_nicks w)) (lex_sort (p_nicks w)) []) (seq 0 n)).
Proof.
  intros w c a ctx i n T A N G B. rewrite nick_first, nick_cycle; auto.
  - rewrite (C32_cycle _ a i) by (auto; intros X; apply sorted_of in X; destruct (G _ X) as [Y _]; now apply Y).
    rewrite map_map, (Permutation_length (lex_sort_perm (p_nicks w))). reflexivity.
  - apply new_sound.
  - intros x X. apply sorted_of in X. now apply G.
Qed.
Print Assumptions C91_nick.

(** Hence every contact is reached. *)
Theorem C91_reach : forall w c a ctx y z, takes_nick c -> ~ In 32 a -> no_nick ctx ->
  (forall x, In x (p_nicks w) -> x <> [] /\ ~ In 32 x) -> In y (p_nicks w) -> starts a y -> In z (p_nicks w) ->
  exists lines, tab_lines (length (p_nicks w)) w (mkTab (c ++ 32 :: a) ctx) = Ok lines /\
    In (c ++ 32 :: z) lines /\ exists first r, lines = (c ++ 32 :: first) :: r /\ starts a first.
Proof.
  intros w c a ctx y z T A N G Y P Z. set (all := lex_sort (p_nicks w)).
  assert (NE : ~ In [] all) by (intros X; apply sorted_of in X; destruct (G _ X) as [X' _]; now apply X').
  assert (BI : exists i, begins all a i).
  { destruct a as [|x a]; [exists 0%nat; left; repeat split; auto; intros E; apply of_sorted in Y; fold all in Y; rewrite E in Y; destruct Y|].
    pose proof (first_match_spec (x :: a) all 0) as F. destruct (first_match 0 all (x :: a)) as [[i v]|].
    - destruct F as (d & _ & D1 & D2 & D3). exists d. right. split; [discriminate|]. split; eauto.
    - exfalso. apply (F y); auto. now apply sorted_In. }
  destruct BI as (i & B). destruct (C32_all all a i NE B) as (shown & E & PM & SH).
  rewrite nick_first, nick_cycle by (auto using new_sound; intros x X; apply sorted_of in X; now apply G). fold all.
  rewrite <- (Permutation_length (lex_sort_perm (p_nicks w))). fold all. rewrite E. eexists. split; [reflexivity|]. split.
  - apply (in_map (fun x => c ++ 32 :: x)). eapply Permutation_in; [exact PM|]. now apply of_sorted.
  - destruct B as [(-> & -> & H)|(_ & (v & NT & SV) & _)].
    + destruct all as [|f r]; [congruence|]. rewrite SH. cbn [skipn app map firstn]. do 2 eexists. split; [reflexivity|]. exists f. reflexivity.
    + exists v. assert (SK : exists r, skipn i all = v :: r).
      { clear - NT. revert i NT. induction all as [|h l IH]; intros [|i] NT; try discriminate; cbn in *; eauto. injection NT as ->. eauto. }
      destruct SK as (r & SK). rewrite SH, SK. cbn [app map]. eauto.
Qed.
Print Assumptions C91_reach.

(** The files: in a directory that was named with a slash at its end, or at the first Tab
    after the contact, they are offered in turn. *)
Definition path_line (n a : bytes) : bytes := bs "/send" ++ 32 :: n ++ 32 :: a.
Lemma tab_path w n a ctx : ~ In 32 n -> ~ In 32 a ->
  tab w (mkTab (path_line n a) ctx) = dir_line w (mkTab (path_line n a) ctx) [bs "/send"; n; a].
Proof.
  intros N A. unfold tab, path_line. cbn [t_line]. change (bs "/send" ++ 32 :: n ++ 32 :: a) with (bs "/send" ++ 32 :: (n ++ 32 :: a)).
  rewrite split_cons by (cbn; intuition discriminate). rewrite split_cons, split_one by auto. reflexivity.
Qed.

Lemma path_cycle w m : ~ In 32 m -> forall n k a, sound k ->
  (forall x, In x (c_all k) -> ~ In 32 x /\ restarts x = false) -> ~ In 32 a -> restarts a = false ->
  tab_lines n w (mkTab (path_line m a) (Some (ModeFile, k))) =
  match tabs n k a with Ok l => Ok (map (path_line m) l) | Err e => Err e | Panic => Panic end.
Proof.
  intros M. induction n as [|n IH]; intros k a S NB A R; [reflexivity|]. cbn [tab_lines tabs].
  rewrite tab_path by auto. unfold dir_line, complete_dir. rewrite R. cbn [t_ctx].
  destruct (next_sound k a S) as (k' & o & -> & AL & S' & O).
  change (bs "/send" ++ bs " " ++ m ++ bs " " ++ o) with (path_line m o).
  assert (O' : ~ In 32 o /\ restarts o = false) by (destruct O as [->|O]; auto). destruct O' as [O1 O2].
  rewrite IH; auto.
  - cbn [t_line]. destruct (tabs n k' o); reflexivity.
  - rewrite AL. auto.
Qed.

(** A name that does not end in a slash and is not the home directory. *)
Definition plain_name (x : bytes) : Prop := x <> [] /\ ~ In 32 x /\ x <> bs "~" /\ forall p, x <> p ++ bs "/".
Definition fresh_path (ctx : option (mode * completion)) (a : bytes) : Prop :=
  a = bs "~" \/ (exists p, a = p ++ bs "/") \/ match ctx with Some (ModeFile, _) => False | _ => True end.

Lemma plain_restarts x : plain_name x -> restarts x = false.
Proof.
  intros (N & _ & T & S). unfold restarts. apply Bool.orb_false_iff. split.
  - destruct (eqb_spec (last x 0) 47) as [E|]; auto. exfalso. apply (S (removelast x)). rewrite (app_removelast_last 0 N) at 1. now rewrite E.
  - destruct (eqb_spec x (bs "~")); [contradiction|reflexivity].
Qed.

Theorem C91_file : forall w m a ctx ef i n, ~ In 32 m -> ~ In 32 a -> fresh_path ctx a -> p_expand w a = Some ef ->
  (forall x, In x (p_glob w ef) -> plain_name x) -> begins (lex_sort (p_glob w ef)) ef i ->
  tab_lines n w (mkTab (path_line m a) ctx) =
  Ok (map (fun k => path_line m (nth ((i + k) mod length (p_glob w ef)) (lex_sort (p_glob w ef)) [])) (seq 0 n)).
Proof.
  intros w m a ctx ef i [|n] M A FR X G B; [reflexivity|]. set (all := lex_sort (p_glob w ef)) in *.
  assert (NE : ~ In [] all) by (intros Y; apply sorted_of in Y; destruct (G _ Y) as [Y' _]; now apply Y').
  assert (LE : length (p_glob w ef) = length all) by (symmetry; apply Permutation_length, lex_sort_perm). rewrite LE.
  pose proof (C32_cycle all ef i (S n) NE B) as CY. cbn [tabs] in CY. cbn [tab_lines].
  rewrite tab_path by auto. unfold dir_line. cbn [t_ctx].
  assert (CD : complete_dir w (if restarts a then None else ctx) a =
    match next (new_comp all) ef with Ok (k', s) => Ok (Some (ModeFile, k'), s) | Err e => Err e | Panic => Panic end).
  { unfold complete_dir. destruct (restarts a) eqn:R; [now rewrite X|].
    destruct ctx as [[[|] k]|]; try now rewrite X.
    destruct FR as [->|[(p & ->)|[]]]; [discriminate|]. unfold restarts in R. cbn [bs] in R.
    change (p ++ bs "/") with (p ++ [47]) in R. rewrite last_last in R. discriminate. }
  rewrite CD. clear CD. destruct (next_sound (new_comp all) ef (new_sound _)) as (k' & o & NX & AL & S' & _).
  rewrite NX in CY. rewrite NX. destruct (tabs n k' o) as [l| |] eqn:TB; try discriminate. injection CY as CO CL.
  change (bs "/send" ++ bs " " ++ m ++ bs " " ++ o) with (path_line m o).
  assert (IN : forall x, In x all -> plain_name x) by (intros x Y; apply G; now apply sorted_of).
  assert (PO : plain_name o).
  { apply IN. rewrite CO. apply nth_In. apply Nat.mod_upper_bound.
    destruct B as [(_ & _ & H)|(_ & (v & NT & _) & _)]; intros Z; apply length_zero_iff_nil in Z; [contradiction|].
    rewrite Z in NT. destruct i; discriminate. }
  rewrite path_cycle; auto.
  - rewrite TB. cbn [t_line seq map]. rewrite CO, CL, !map_map. reflexivity.
  - intros x Y. rewrite AL in Y. split; [now apply IN|now apply plain_restarts, IN].
  - apply PO.
  - now apply plain_restarts.
Qed.
Print Assumptions C91_file.

(** * Where Tab fails *)

(** A path that names neither a directory nor anything else, such as one typed in part: it
    is not completed, and from then on no other is that does not end in a slash, whatever
    files there are. *)
Lemma dead_next k a : c_all k = [] -> next k a = Ok (mkComp [] 0 (c_prev k), a).
Proof. unfold next. now intros ->. Qed.
Lemma dead_more m : ~ In 32 m -> forall l k a, c_all k = [] -> Forall (fun wb => plain_name (snd wb)) l ->
  exists k', c_all k' = [] /\
  presses (mkTab (path_line m a) (Some (ModeFile, k))) (flat_map (fun wb => [KType (path_line m (snd wb)); KTab (fst wb)]) l) =
  Ok (mkTab (path_line m (last (map snd l) a)) (Some (ModeFile, k'))).
Proof.
  intros M. induction l as [|[w b] l IH]; intros k a K F; [exists k; auto|]. inversion F as [|? ? P F']; subst. cbn [snd] in P.
  cbn [flat_map fst snd app presses press t_ctx]. destruct P as (P1 & P2 & P3). rewrite tab_path by auto.
  unfold dir_line, complete_dir. rewrite plain_restarts by (split; auto). cbn [t_ctx]. rewrite dead_next by auto.
  change (bs "/send" ++ bs " " ++ m ++ bs " " ++ b) with (path_line m b).
  destruct (IH (mkComp [] 0 (c_prev k)) b eq_refl F') as (k' & K' & E). exists k'. split; auto. rewrite E.
  cbn [map snd]. destruct l as [|y l]; [reflexivity|]. cbn [map].
  do 2 f_equal. f_equal. clear. generalize (snd y). revert a b. induction (map snd l) as [|z r IHr]; intros a b c; [reflexivity|].
  cbn [last] in *. destruct r; auto.
Qed.
Theorem C91_dead : forall w m a ctx ef l, ~ In 32 m -> ~ In 32 a -> fresh_path ctx a ->
  p_expand w a = Some ef -> p_glob w ef = [] -> Forall (fun wb => plain_name (snd wb)) l ->
  exists t, presses (mkTab (path_line m a) ctx)
    (KTab w :: flat_map (fun wb => [KType (path_line m (snd wb)); KTab (fst wb)]) l) = Ok t /\
  t_line t = path_line m (last (map snd l) ef).
Proof.
  intros w m a ctx ef l M A FR X G F. cbn [presses press]. rewrite tab_path by auto. unfold dir_line. cbn [t_ctx].
  assert (CD : complete_dir w (if restarts a then None else ctx) a = Ok (Some (ModeFile, mkComp [] 0 (-1)), ef)).
  { unfold complete_dir. destruct (restarts a) eqn:R; [now rewrite X, G|].
    destruct ctx as [[[|] k]|]; try now rewrite X, G.
    destruct FR as [->|[(p & ->)|[]]]; [discriminate|]. unfold restarts in R.
    change (p ++ bs "/") with (p ++ [47]) in R. rewrite last_last in R. discriminate. }
  rewrite CD. change (bs "/send" ++ bs " " ++ m ++ bs " " ++ ef) with (path_line m ef).
  destruct (dead_more m M l (mkComp [] 0 (-1)) ef eq_refl F) as (k' & _ & ->). eexists. split; reflexivity.
Qed.
Print Assumptions C91_dead.

(** A path whose home directory cannot be found, such as "~ann/x", is wiped. *)
Theorem C91_erased : forall w m a ctx, ~ In 32 m -> ~ In 32 a -> fresh_path ctx a -> p_expand w a = None ->
  tab w (mkTab (path_line m a) ctx) = Ok (mkTab (path_line m []) None).
Proof.
  intros w m a ctx M A FR X. rewrite tab_path by auto. unfold dir_line, complete_dir. cbn [t_ctx].
  destruct (restarts a) eqn:R; [now rewrite X|]. destruct ctx as [[[|] k]|]; try now rewrite X.
  destruct FR as [->|[(p & ->)|[]]]; [discriminate|]. unfold restarts in R.
  change (p ++ bs "/") with (p ++ [47]) in R. rewrite last_last in R. discriminate.
Qed.
Print Assumptions C91_erased.

(** Who becomes a contact after the first Tab is not offered before Enter, whatever is
    typed instead. *)
Definition here (ns : list bytes) : place := {| p_nicks := ns; p_expand := Some; p_glob := fun _ => [] |}.
Lemma still w t n : tab w t = Ok t -> presses t (repeat (KTab w) n) = Ok t.
Proof. intros H. induction n as [|n IH]; [reflexivity|]. cbn [repeat presses press]. now rewrite H. Qed.
Theorem C91_stale_refuted : exists w w' z, In z (p_nicks w') /\ forall n, exists t t',
  presses (mkTab [] None) ([KType (bs "/m b"); KTab w; KType (bs "/m z")] ++ repeat (KTab w') n) = Ok t /\
  t_line t = bs "/m z" /\
  presses (mkTab [] None) [KType (bs "/m b"); KTab w; KEnter; KType (bs "/m z"); KTab w'] = Ok t' /\
  t_line t' = bs "/m " ++ z.
Proof.
  exists (here [bs "bob"]), (here [bs "bob"; bs "zoe"]), (bs "zoe"). split; [right; now left|]. intros n.
  set (r := repeat _ n). destruct n as [|n].
  - exists (mkTab (bs "/m z") (Some (ModeNick, mkComp [bs "bob"] 0 0))). eexists. repeat split.
  - exists (mkTab (bs "/m z") (Some (ModeNick, mkComp [bs "bob"] 0 (-1)))). eexists. split; [|repeat split].
    unfold r. cbn [repeat]. rewrite presses_app.
    change (presses (mkTab (bs "/m z") (Some (ModeNick, mkComp [bs "bob"] 0 (-1)))) (repeat (KTab (here [bs "bob"; bs "zoe"])) n) =
      Ok (mkTab (bs "/m z") (Some (ModeNick, mkComp [bs "bob"] 0 (-1))))). now apply still.
Qed.
Print Assumptions C91_stale_refuted.

(** A contact with a blank in the nick: Tab stays there, and the message that is then typed
    goes to another. *)
Theorem C91_space_refuted : exists w o p q text, p_nicks w = map nick [q; p] /\ nick p <> nick q /\ ident p <> ident q /\
  (forall n, exists t, presses (mkTab (bs "/m bob") None) (repeat (KTab w) (2 + n)) = Ok t /\ t_line t = bs "/m " ++ nick p) /\
  snd (action me0 o [console me0] 0 (bs "/m " ++ nick p ++ bs " " ++ text)) = Private (ident q) (bs "smith " ++ text) (Some 1%nat).
Proof.
  exists (here [bs "bob"; bs "bob smith"]), o3, smith, bob, (bs "our secret").
  split; [reflexivity|]. split; [discriminate|]. split; [discriminate|]. split; [|vm_compute; reflexivity].
  intros n. exists (mkTab (bs "/m bob smith") (Some (ModeNick, mkComp [bs "bob"; bs "bob smith"] 1 1))). split; [|reflexivity].
  change (presses (mkTab (bs "/m bob smith") (Some (ModeNick, mkComp [bs "bob"; bs "bob smith"] 1 1))) (repeat (KTab (here [bs "bob"; bs "bob smith"])) n) =
    Ok (mkTab (bs "/m bob smith") (Some (ModeNick, mkComp [bs "bob"; bs "bob smith"] 1 1)))). now apply still.
Qed.
Print Assumptions C91_space_refuted.

(** * Cases *)
Definition town := here [bs "cy"; bs "bob"; bs "al"; bs "bert"].
Example C91_nick_case : takes_nick (bs "/query") /\ begins (lex_sort (p_nicks town)) (bs "b") 1 /\
  (forall x, In x (p_nicks town) -> x <> [] /\ ~ In 32 x) /\
  tab_lines 5 town (mkTab (bs "/query b") None) = Ok [bs "/query bert"; bs "/query bob"; bs "/query cy"; bs "/query al"; bs "/query bert"].
Proof.
  split; [unfold takes_nick; cbn [In]; tauto|]. split; [|split; [|reflexivity]].
  - right. split; [discriminate|]. split.
    + exists (bs "bert"). split; auto. exists (bs "ert"). reflexivity.
    + intros [|j] v H; [|lia]. intros [= <-] (t & E). discriminate.
  - intros x H. cbn in H. intuition (subst; try discriminate); cbn in *; intuition discriminate.
Qed.
Definition docs : place := {| p_nicks := [bs "bob"]; p_expand := fun a => if eqb a (bs "~ann/x") then None else Some a;
  p_glob := fun d => if eqb d (bs "doc/") then [bs "doc/b"; bs "doc/a"] else [] |}.
Example C91_file_case : fresh_path None (bs "doc/") /\ p_expand docs (bs "doc/") = Some (bs "doc/") /\
  (forall x, In x (p_glob docs (bs "doc/")) -> plain_name x) /\ begins (lex_sort (p_glob docs (bs "doc/"))) (bs "doc/") 0 /\
  tab_lines 3 docs (mkTab (bs "/send bob doc/") None) = Ok [bs "/send bob doc/a"; bs "/send bob doc/b"; bs "/send bob doc/a"].
Proof.
  split; [right; left; exists (bs "doc"); reflexivity|]. split; [reflexivity|]. split; [|split; [|reflexivity]].
  - intros x [<-|[<-|[]]]; (split; [discriminate|]; split; [cbn; intuition discriminate|]; split; [discriminate|]);
      intros p E; apply (f_equal (fun s => last s 0)) in E; change (p ++ bs "/") with (p ++ [47]) in E; rewrite last_last in E; discriminate.
  - right. split; [discriminate|]. split; [exists (bs "doc/a"); split; auto; exists (bs "a"); reflexivity|]. intros j v H. lia.
Qed.
Example C91_frame_case : exists t, presses (mkTab [] None) [KType (bs "/send b"); KTab docs; KType (bs "/send bob doc/"); KTab docs] = Ok t /\
  t_line t = bs "/send bob doc/a".
Proof. eexists. split; vm_compute; reflexivity. Qed.
Example C91_dead_case : p_glob docs (bs "doc/re") = [] /\ plain_name (bs "doc") /\
  (exists t, presses (mkTab (path_line (bs "bob") (bs "doc/re")) None) [KTab docs; KType (path_line (bs "bob") (bs "doc")); KTab docs] = Ok t /\
     t_line t = path_line (bs "bob") (bs "doc")) /\
  p_expand docs (bs "~ann/x") = None /\
  tab docs (mkTab (bs "/send bob ~ann/x") None) = Ok (mkTab (bs "/send bob ") None).
Proof.
  split; [reflexivity|]. split.
  - split; [discriminate|]. split; [cbn; intuition discriminate|]. split; [discriminate|].
    intros p E. apply (f_equal (fun s => last s 0)) in E. change (p ++ bs "/") with (p ++ [47]) in E. rewrite last_last in E. discriminate.
  - split; [eexists; split; vm_compute; reflexivity|]. split; reflexivity.
Qed.
