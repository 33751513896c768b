(** The file in which the open windows are kept. *)
From Verif Require Import Base XdrModel XdrProofs RpcModel RpcProofs StrconvModel IniModel IniMemProofs IniFileProofs IniDiskProofs ServerDbModel ServerDbProofs
  AddrModel WinModel WinProofs WinProps KeepModel.
From Coq Require Import ZArith Lia Permutation.
Local Open Scope N_scope.

(** * C86 *)

(** Windows as they are: the sizes of keys, strings that XDR takes, and bytes. *)
Definition win_ok (w : win) : Prop :=
  PublicIdentity_ok 0 (w_pub w) /\ str_ok 0 (w_nick w) /\ Forall is_byte (enc win_codec w).
Definition wins_ok (ws : list win) : Prop := Forall win_ok ws /\ N.of_nat (length ws) < 2 ^ 31.

Lemma good_win : XdrProofs.good win_codec (fun lim w => PublicIdentity_ok lim (w_pub w) /\ str_ok lim (w_nick w)).
Proof.
  eapply good_iso; [exact (good_pair _ _ _ _ good_PublicIdentity (good_pair _ _ _ _ good_opaque good_bool))| | |].
  - now intros [].
  - now intros [? [? ?]].
  - intros lim w. cbn [fst snd]. tauto.
Qed.
Lemma win_round w : win_ok w -> dec win_codec 0 (enc win_codec w) = Some (w, []).
Proof. intros (A & B & _). destruct good_win as [R _]. specialize (R 0 w [] (conj A B)). now rewrite app_nil_r in R. Qed.

(** ** The records *)

Lemma key_inj i j : N.of_nat i < 2 ^ 64 -> N.of_nat j < 2 ^ 64 -> key i = key j -> i = j.
Proof. intros A B E. unfold key in E. apply app_inv_head in E. apply format_inj in E; auto. lia. Qed.
Lemma key_clean i : N.of_nat i < 2 ^ 64 -> clean_key (key i).
Proof.
  intros H. destruct (format_digits _ H) as [_ D]. apply digit_range in D. unfold key.
  assert (A : Forall (fun c => 48 <= c /\ c <> 61) (bs "conversation" ++ format_uint (N.of_nat i))).
  { apply Forall_app. split; [cbn; repeat (apply Forall_cons; [lia|]); constructor|]. revert D. apply Forall_impl. lia. }
  split; [apply clean_visible; revert A; apply Forall_impl; lia|]. split.
  - intros I. rewrite Forall_forall in A. specialize (A _ I). unfold EQ in A. lia.
  - cbn. unfold SEMI, HASH. lia.
Qed.
Lemma key_n i : key i <> bs "n".
Proof. discriminate. Qed.

Section Records.
Variable t0 : tables.
Lemma set_exists t : forall ws i h, table_exists t0 (rev (set_windows i ws) ++ h) t = table_exists t0 h t.
Proof. induction ws as [|w ws IH]; intros i h; [reflexivity|]. cbn [set_windows rev]. rewrite <- app_assoc, IH. reflexivity. Qed.
Lemma set_other t k : t <> table -> forall ws i h, last_value t0 (rev (set_windows i ws) ++ h) t k = last_value t0 h t k.
Proof.
  intros N. induction ws as [|w ws IH]; intros i h; [reflexivity|]. cbn [set_windows rev]. rewrite <- app_assoc, IH. cbn [app last_value].
  destruct (eqb_spec t table); [easy|reflexivity].
Qed.
Lemma set_values : forall ws i h, table_exists t0 h table = true -> N.of_nat (i + length ws) < 2 ^ 64 ->
  (forall j w, nth_error ws j = Some w -> last_value t0 (rev (set_windows i ws) ++ h) table (key (i + j)) = Some (b64_encode (enc win_codec w))) /\
  (forall k, (forall j, (j < length ws)%nat -> k <> key (i + j)) -> last_value t0 (rev (set_windows i ws) ++ h) table k = last_value t0 h table k).
Proof.
  induction ws as [|w ws IH]; intros i h T B.
  - split; [intros [|j] v; discriminate|reflexivity].
  - cbn [set_windows rev length] in *. rewrite <- app_assoc. cbn [app]. set (o := ISet table (key i) (b64_encode (enc win_codec w))).
    destruct (IH (S i) (o :: h)) as [I1 I2]; [exact T|lia|]. split.
    + intros [|j] v E.
      * cbn in E. injection E as <-. rewrite Nat.add_0_r, I2.
        -- cbn [last_value o]. now rewrite !eqb_refl, T.
        -- intros j J K. apply key_inj in K; lia.
      * cbn in E. replace (i + S j)%nat with (S i + j)%nat by lia. now apply I1.
    + intros k K. rewrite I2.
      * cbn [last_value o]. destruct (eqb_spec k (key i)) as [->|]; [|now rewrite andb_false_r].
        exfalso. apply (K 0%nat); [lia|]. now rewrite Nat.add_0_r.
      * intros j J. specialize (K (S j) ltac:(lia)). now replace (S i + j)%nat with (i + S j)%nat by lia.
Qed.
End Records.

Definition t00 : tables := [([], [])].
Lemma save_rev ws : rev (save_ops ws) = rev (set_windows 0 ws) ++ [ISet table (bs "n") (b64_encode (enc xint (Z.of_nat (length ws)))); INewTable table].
Proof. unfold save_ops. cbn [rev]. rewrite <- app_assoc. reflexivity. Qed.
Lemma saved_values ws : N.of_nat (length ws) < 2 ^ 31 ->
  last_value t00 (rev (save_ops ws)) table (bs "n") = Some (b64_encode (enc xint (Z.of_nat (length ws)))) /\
  (forall j w, nth_error ws j = Some w -> last_value t00 (rev (save_ops ws)) table (key j) = Some (b64_encode (enc win_codec w))) /\
  (forall k, last_value t00 (rev (save_ops ws)) [] k = None).
Proof.
  intros B. rewrite save_rev. set (h := [ISet _ _ _; INewTable table]).
  assert (T : table_exists t00 h table = true) by reflexivity.
  destruct (set_values t00 ws 0 h T ltac:(cbn [Nat.add]; lia)) as [A1 A2]. split; [|split].
  - rewrite A2; [reflexivity|]. intros j _ E. symmetry in E. now apply key_n in E.
  - intros j w E. exact (A1 j w E).
  - intros k. rewrite set_other by discriminate. reflexivity.
Qed.

Lemma save_clean ws : wins_ok ws -> Forall clean_op (rev (save_ops ws)).
Proof.
  intros [F B]. apply Forall_rev. unfold save_ops. constructor; [|constructor].
  - cbn. split; [apply clean_visible|]; cbn; [repeat (apply Forall_cons; [lia|]); constructor|].
    unfold EQ. intros I. repeat (destruct I as [I|I]; [discriminate I|]). exact I.
  - split.
    + split; [apply clean_visible; cbn; repeat (apply Forall_cons; [lia|]); constructor|]. split; [|cbn; unfold SEMI, HASH; lia].
      unfold EQ. intros I. cbn in I. intuition discriminate.
    + apply clean_b64, be_bytes.
  - assert (G : forall l i, Forall win_ok l -> N.of_nat (i + length l) < 2 ^ 64 -> Forall clean_op (set_windows i l)).
    { induction l as [|w l IH]; intros i Fl Bl; [constructor|]. inversion Fl as [|? ? (A1 & A2 & A3) Fr]; subst. cbn [set_windows length] in *.
      constructor; [|apply IH; [exact Fr|lia]]. split; [apply key_clean; lia|now apply clean_b64]. }
    apply G; [exact F|cbn [Nat.add]; lia].
Qed.

(** ** The files *)

Lemma in_cut {A} (x : A) (b : bool) n l : In x (if b then [] else firstn n l) -> In x l.
Proof. destruct b; [intros []|]. intros H. rewrite <- (firstn_skipn n l). apply in_or_app. now left. Qed.
Lemma created_done d base tmp c es : is_temp base tmp -> es = fst (save_dir d base tmp [] true 10 c) -> mget (fs_run d es) base = Some (concat c).
Proof.
  intros T ->. unfold save_dir, save_effects. set (e := _ ++ [FRename tmp base]). cbn [fst].
  rewrite fs_run_app, removes.
  assert (E : mget (fs_run d e) base = Some (concat c)).
  { unfold e. rewrite fs_run_app. change (FCreate tmp :: map (FAppend tmp) c) with (writes tmp c). cbn [fs_run fold_left fs_apply].
    fold (fs_run d (writes tmp c)). rewrite writes_done, eqb_refl. apply mget_mset_eq. }
  destruct (mem base (prune_list (fs_run d e) base 10)) eqn:M; [|exact E].
  exfalso. apply mem_In in M. unfold prune_list in M. cbv zeta in M.
  apply in_cut in M. apply filter_In in M as [_ M]. apply backup_prefix in M. now apply base_not_backup in M.
Qed.

Lemma empty_file d base : mget d base = None \/ mget d base = Some (render [([], [])]) -> restore_file d base = Untouched.
Proof. intros [E|E]; unfold restore_file, ini_open; rewrite E; [reflexivity|]. vm_compute. reflexivity. Qed.

Lemma read_db t k : read_record (IniMemProofs.opened t false) k = match IniFileProofs.lookup t table k with Some v => b64_decode v | None => None end.
Proof.
  unfold read_record, ini_get, IniFileProofs.lookup. cbn [db_tables IniMemProofs.opened]. destruct (mget t table) as [s|]; [|reflexivity].
  now destruct (mget s k).
Qed.

Lemma read_all t : forall ws i, Forall win_ok ws ->
  (forall j w, nth_error ws j = Some w -> IniFileProofs.lookup t table (key (i + j)) = Some (b64_encode (enc win_codec w))) ->
  read_windows (IniMemProofs.opened t false) i (length ws) = (map w_nick ws, true).
Proof.
  induction ws as [|w ws IH]; intros i F L; [reflexivity|]. inversion F as [|? ? O Fr]; subst. cbn [length read_windows map].
  rewrite read_db. rewrite <- (Nat.add_0_r i) at 1. rewrite (L 0%nat w eq_refl). rewrite b64_round by apply O. rewrite win_round by auto.
  rewrite (IH (S i)); auto. intros j v E. replace (S i + j)%nat with (i + S j)%nat by lia. now apply L.
Qed.

Lemma full_file d base ws order : wins_ok ws -> iterates (full ws) order -> mget d base = Some (render order) ->
  restore_file d base = Back (map w_nick (skipn 1 ws)).
Proof.
  intros Ok It E. pose proof Ok as [F B]. destruct (saved_values ws B) as (V1 & V2 & V3).
  destruct (history_save_reopen t00 true (rev (save_ops ws)) order) as (t & P & L & _).
  - split; [repeat constructor; easy|]. intros n s. unfold t00. cbn [mget]. destruct (eqb n []); [|discriminate]. intros [= <-]. constructor.
  - constructor; [|constructor]. cbn [fst snd]. split; [|constructor]. split; [apply clean_visible; constructor|]. intros [].
  - now apply save_clean.
  - left. exact V3.
  - exact It.
  - unfold restore_file, ini_open. rewrite E, P. rewrite read_db, L, V1, b64_round by apply be_bytes.
    assert (R : dec xint 0 (enc xint (Z.of_nat (length ws))) = Some (Z.of_nat (length ws), [])).
    { destruct good_int as [R _]. specialize (R 0 (Z.of_nat (length ws)) []). rewrite app_nil_r in R. apply R. unfold i32_ok. lia. }
    rewrite R. destruct ws as [|w ws]; [reflexivity|].
    replace (Z.to_nat (Z.of_nat (length (w :: ws)) - 1)) with (length ws) by (cbn [length]; lia).
    inversion F; subst. rewrite (read_all t ws 1); auto. intros j v J. rewrite L. exact (V2 (S j) v J).
Qed.

Lemma temp_not_stamp base tmp : is_temp base tmp -> tmp <> base ++ [DOT] ++ [].
Proof. intros (c & r & -> & C) E. apply app_inv_head in E. injection E as -> _. unfold DOT in C. lia. Qed.

(** ** Theorems *)

(** What /save has written, /restore reads: all windows but the console, in order. *)
Theorem C86_back : forall d base ws es, wins_ok ws -> saving d base ws es ->
  restore_file (fs_run d es) base = Back (map w_nick (skipn 1 ws)).
Proof.
  intros d base ws es Ok (t1 & t2 & c1 & c2 & order & T1 & T2 & C1 & It & C2 & ->).
  apply (full_file _ _ ws order Ok It). unfold save_effs. cbv zeta.
  set (d0 := fs_run d [FRemove base]). set (e1 := fst (save_dir d0 base t1 [] true 10 c1)).
  change (fs_run d (FRemove base :: e1 ++ fst (save_dir (fs_run d0 e1) base t2 [] true 10 c2)))
    with (fs_run d0 (e1 ++ fst (save_dir (fs_run d0 e1) base t2 [] true 10 c2))).
  rewrite fs_run_app, (created_done _ base t2 c2 _ T2 eq_refl). now rewrite C2.
Qed.
Print Assumptions C86_back.

(** So the windows come back, under the conditions of C69. *)
Theorem C86_windows : forall me s ws d base es es' s', wins_ok (s_wins s) -> saving d base (s_wins s) es ->
  s_wins s = console me :: ws -> Forall (found_again me (s_world s)) ws ->
  NoDup (map w_nick ws) -> ~ In (bs "console") (map w_nick ws) ->
  (forall i j v w, nth_error ws i = Some v -> nth_error ws j = Some w -> w_group v = false -> w_group w = false ->
     ident (w_pub v) = ident (w_pub w) -> i = j) ->
  filter command es' = commands_of (restore_file (fs_run d es) base) ->
  exec me s es' = Go s' -> s_wins s' = s_wins s.
Proof.
  intros me s ws d base es es' s' Ok Sv E F ND NC NI Fc X. rewrite (C86_back _ _ _ _ Ok Sv) in Fc.
  apply (C69_restore me s ws es' s' E F ND NC NI); [|exact X]. exact Fc.
Qed.
Print Assumptions C86_windows.

(** If the program dies (or gives up) on the way, the file is as it was only if nothing was
    done; else there is nothing to restore, or all of it.  Never is a part restored or a
    window closed in vain. *)
Theorem C86_crash : forall d base ws es done rest, wins_ok ws -> saving d base ws es -> es = done ++ rest ->
  done = [] \/ commands_of (restore_file (fs_run d done) base) = [] \/
  commands_of (restore_file (fs_run d done) base) = CloseAll :: map Query (map w_nick (skipn 1 ws)).
Proof.
  intros d base ws es done rest Ok0 Sv E0.
  enough (H : done = [] \/ restore_file (fs_run d done) base = Untouched \/ restore_file (fs_run d done) base = Back (map w_nick (skipn 1 ws)))
    by (destruct H as [H|[H|H]]; rewrite ?H; auto).
  revert d base ws es done rest Ok0 Sv E0. intros d base ws es done rest Ok (t1 & t2 & c1 & c2 & order & T1 & T2 & C1 & It & C2 & ->) E.
  destruct done as [|e done]; [now left|right]. unfold save_effs in E. cbv zeta in E. cbn [app] in E.
  set (d0 := fs_run d [FRemove base]) in *. assert (E0 : FRemove base = e) by exact (f_equal (hd (FRemove base)) E). subst e.
  apply (f_equal (@tl fs_eff)) in E. cbn [tl] in E. change (fs_run d (FRemove base :: done)) with (fs_run d0 done).
  assert (N0 : mget d0 base = None) by (cbn [d0 fs_run fold_left fs_apply]; unfold d0; cbn; rewrite mget_mdel, eqb_refl; reflexivity).
  set (e1 := fst (save_dir d0 base t1 [] true 10 c1)) in *. set (e2 := fst (save_dir (fs_run d0 e1) base t2 [] true 10 c2)) in *.
  symmetry in E. apply app_prefix in E as [(c & E & _)|(c & E & E')].
  - left. apply empty_file.
    destruct (save_crash d0 base t1 [] true 10 c1 e1 true done c) as [H|[[_ H]|(X & _)]]; auto.
    + now apply temp_not_base.
    + now apply temp_not_stamp.
    + left. now rewrite H.
    + right. now rewrite H, C1.
    + discriminate.
  - subst done. rewrite fs_run_app.
    destruct (save_crash (fs_run d0 e1) base t2 [] true 10 c2 e2 true c rest) as [H|[[_ H]|(X & _)]]; auto.
    + now apply temp_not_base.
    + now apply temp_not_stamp.
    + left. apply empty_file. right. rewrite H, (created_done _ base t1 c1 e1 T1 eq_refl). now rewrite C1.
    + right. apply (full_file _ _ ws order Ok It). now rewrite H, C2.
    + discriminate.
Qed.
Print Assumptions C86_crash.

(** But what was saved before is gone with the first step, and there is no copy of it. *)
Theorem C86_gone_refuted : forall d base old ws es, NoDup (mkeys d) -> mget d base = Some old ->
  (forall n, n <> base -> mget d n <> Some old) -> saving d base ws es ->
  exists rest, es = [FRemove base] ++ rest /\ rest <> [] /\
    restore_file (fs_run d [FRemove base]) base = Untouched /\ (forall n, mget (fs_run d [FRemove base]) n <> Some old).
Proof.
  intros d base old ws es ND E U (t1 & t2 & c1 & c2 & order & T1 & T2 & C1 & It & C2 & ->). eexists. split; [reflexivity|]. split; [|split].
  - unfold save_dir, save_effects. cbn [fst]. discriminate.
  - apply empty_file. left. cbn. rewrite mget_mdel, eqb_refl. reflexivity.
  - intros n. cbn. rewrite mget_mdel. destruct (eqb_spec n base); [discriminate|now apply U].
Qed.
Print Assumptions C86_gone_refuted.

(** A file that was changed by hand: /restore closes all windows before it finds out. *)
Theorem C86_damaged_refuted : exists t, forall d base, mget d base = Some t ->
  restore_file d base = Lost [bs "bob"] /\ commands_of (restore_file d base) = [CloseAll; Query (bs "bob"); CloseAll].
Proof.
  exists (render [(table, [(bs "n", b64_encode (enc xint 3%Z)); (key 1, b64_encode (enc win_codec (group_win (bs "bob"))))]); ([], [])]).
  intros d base E. assert (R : restore_file d base = Lost [bs "bob"]); [|now rewrite R].
  unfold restore_file, ini_open. rewrite E. vm_compute. reflexivity.
Qed.
Print Assumptions C86_damaged_refuted.

(** ** Cases *)

Definition k_ws : list win := [mkWin (group_pub (bs "me")) (bs "console") false; group_win (bs "dev"); group_win (bs "ops")].
Definition k_es : list fs_eff := save_effs [(bs "c", bs "old")] (bs "c") (bs "c1") (bs "c2") [render [([], [])]] [render (full k_ws)].
Example C86_case : wins_ok k_ws /\ saving [(bs "c", bs "old")] (bs "c") k_ws k_es /\
  map (fun k => restore_file (fs_run [(bs "c", bs "old")] (firstn k k_es)) (bs "c")) [1;2;3;4;5;6;7]%nat =
    [Untouched; Untouched; Untouched; Untouched; Untouched; Untouched; Back [bs "dev"; bs "ops"]] /\ length k_es = 7%nat.
Proof.
  assert (D : forall l, forallb (fun b => b <? 256) l = true -> Forall is_byte l).
  { intros l H. rewrite forallb_forall in H. apply Forall_forall. intros x I. apply N.ltb_lt. auto. }
  split; [|split; [|vm_compute; auto]].
  - split; [|reflexivity]. repeat (apply Forall_cons; [split; [vm_compute; intuition discriminate|split; [vm_compute; intuition discriminate|apply D; vm_compute; reflexivity]]|]).
    constructor.
  - exists (bs "c1"), (bs "c2"), [render [([], [])]], [render (full k_ws)], (full k_ws).
    split; [exists 49, []; split; [reflexivity|lia]|]. split; [exists 50, []; split; [reflexivity|lia]|].
    split; [apply app_nil_r|]. split; [|split; [apply app_nil_r|reflexivity]].
    exists (full k_ws). split; [apply Permutation_refl|]. induction (full k_ws); constructor; auto.
Qed.
