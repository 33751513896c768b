(** Crash safety of Save and pruning of backups. *)
From Verif Require Import Base IniModel.

(** * Specification *)

(** Names of backups of the database file [base]. *)
Definition is_backup (base name : bytes) : Prop := exists s, name = base ++ [DOT] ++ s.

(** Names made by ioutil.TempFile(dir, base): base followed by digits. *)
Definition is_temp (base name : bytes) : Prop :=
  exists c r, name = base ++ c :: r /\ (48 <= c <= 57)%N.

(** A moment as (yyyymmdd, hhmmss, nanoseconds) and the order of time. *)
Definition valid_time (t : N * N * N) : Prop :=
  let '(a, b, c) := t in (a < 10 ^ 8 /\ b < 10 ^ 6 /\ c < 10 ^ 9)%N.
Definition time_lt (t u : N * N * N) : Prop :=
  let '(a, b, c) := t in let '(a', b', c') := u in
  (a < a' \/ (a = a' /\ (b < b' \/ (b = b' /\ c < c'))))%N.

(** The last [n] elements of a list. *)
Definition lastn {A} (n : nat) (l : list A) : list A := skipn (length l - n) l.

(** A history of saves, oldest first: temporary name, time, written lines. *)
Definition save_call := (bytes * (N * N * N) * list bytes)%type.

(** What each save sets aside, oldest first: backup name and the contents the
    main file had before that save. *)
Fixpoint backups_made (base : bytes) (old : bytes) (h : list save_call) : list (bytes * bytes) :=
  match h with
  | [] => []
  | (_, t, chunks) :: h' => (base ++ [DOT] ++ stamp_of t, old) :: backups_made base (concat chunks) h'
  end.
Fixpoint last_saved (old : bytes) (h : list save_call) : bytes :=
  match h with [] => old | (_, _, chunks) :: h' => last_saved (concat chunks) h' end.

(** Running a history of saves; [None] if some Save reports an error. *)
Fixpoint save_all (d : dir) (base : bytes) (depth : Z) (h : list save_call) : option dir :=
  match h with
  | [] => Some d
  | (tmp, t, chunks) :: h' =>
      match save_dir d base tmp (stamp_of t) false depth chunks with
      | (es, true) => save_all (fs_run d es) base depth h'
      | (_, false) => None
      end
  end.

(** * Effects *)

Lemma fs_run_app d a b : fs_run d (a ++ b) = fs_run (fs_run d a) b.
Proof. unfold fs_run. apply fold_left_app. Qed.

Lemma writes_tmp d tmp cs : forall o, mget d tmp = Some o ->
  mget (fs_run d (map (FAppend tmp) cs)) tmp = Some (o ++ concat cs).
Proof.
  revert d. induction cs as [|c cs IH]; intros d o E; simpl.
  - now rewrite app_nil_r.
  - rewrite E. rewrite (IH _ (o ++ c)).
    + now rewrite app_assoc.
    + apply mget_mset_eq.
Qed.

Lemma writes_other d tmp cs n : n <> tmp ->
  mget (fs_run d (map (FAppend tmp) cs)) n = mget d n.
Proof.
  intros Hn. revert d. induction cs as [|c cs IH]; intros d; simpl; auto.
  rewrite IH. destruct (mget d tmp); auto. now apply mget_mset_ne.
Qed.

Definition writes (tmp : bytes) (cs : list bytes) := FCreate tmp :: map (FAppend tmp) cs.

Lemma writes_done d tmp cs n :
  mget (fs_run d (writes tmp cs)) n = if eqb n tmp then Some (concat cs) else mget d n.
Proof.
  unfold writes. destruct (eqb_spec n tmp) as [->|Hn].
  - change (fs_run d (FCreate tmp :: map (FAppend tmp) cs))
      with (fs_run (mset d tmp []) (map (FAppend tmp) cs)).
    rewrite (writes_tmp _ _ _ []); auto. apply mget_mset_eq.
  - change (fs_run d (FCreate tmp :: map (FAppend tmp) cs))
      with (fs_run (mset d tmp []) (map (FAppend tmp) cs)).
    rewrite writes_other by auto. now apply mget_mset_ne.
Qed.

Lemma map_prefix {A B} (f : A -> B) l : forall a b, map f l = a ++ b ->
  exists l1 l2, l = l1 ++ l2 /\ a = map f l1 /\ b = map f l2.
Proof.
  induction l as [|x l IH]; intros a b E.
  - simpl in E. symmetry in E. apply app_eq_nil in E. destruct E; subst.
    exists [], []; auto.
  - destruct a as [|y a]; simpl in E.
    + exists [], (x :: l). auto.
    + injection E as E1 E2. destruct (IH _ _ E2) as (l1 & l2 & -> & -> & ->).
      subst y. exists (x :: l1), l2. auto.
Qed.

Lemma writes_prefix d tmp cs a b n : writes tmp cs = a ++ b -> n <> tmp ->
  mget (fs_run d a) n = mget d n.
Proof.
  intros E Hn. destruct a as [|e a]; auto.
  injection E as <- E. destruct (map_prefix _ _ _ _ E) as (l1 & l2 & -> & -> & ->).
  change (fs_run d (FCreate tmp :: map (FAppend tmp) l1)) with (fs_run d (writes tmp l1)).
  rewrite writes_done. destruct (eqb_spec n tmp); congruence.
Qed.

Lemma removes d l : forall n,
  mget (fs_run d (map FRemove l)) n = if mem n l then None else mget d n.
Proof.
  revert d. induction l as [|x l IH]; intros d n; simpl; auto.
  rewrite IH. rewrite mget_mdel.
  destruct (eqb_spec n x) as [->|Hx]; simpl; auto.
  destruct (mem x l); auto.
Qed.

Lemma app_prefix {A} (a b l1 l2 : list A) : a ++ b = l1 ++ l2 ->
  (exists c, l1 = a ++ c /\ b = c ++ l2) \/ (exists c, a = l1 ++ c /\ l2 = c ++ b).
Proof.
  revert l1. induction a as [|x a IH]; intros l1 E; simpl in *.
  - left. exists l1. auto.
  - destruct l1 as [|y l1]; simpl in E.
    + right. exists (x :: a). auto.
    + injection E as -> E. destruct (IH _ E) as [(c & -> & ->)|(c & -> & ->)].
      * left; exists c; auto.
      * right; exists c; auto.
Qed.

Lemma has_prefix_spec p s : has_prefix p s = true <-> exists r, s = p ++ r.
Proof.
  revert s. induction p as [|x p IH]; intros s; simpl.
  - split; eauto.
  - destruct s as [|y s].
    + split; [discriminate|]. intros [r E]; discriminate.
    + rewrite andb_true_iff, N.eqb_eq, IH. split.
      * intros [-> [r ->]]. eauto.
      * intros [r E]. injection E as -> ->. eauto.
Qed.

Lemma backup_prefix base n : has_prefix (base ++ [DOT]) n = true <-> is_backup base n.
Proof.
  rewrite has_prefix_spec. unfold is_backup. split; intros [r ->]; exists r;
    now rewrite <- app_assoc.
Qed.

Lemma base_not_backup base : ~ is_backup base base.
Proof.
  intros [s E]. apply (f_equal (@length N)) in E. rewrite !app_length in E. simpl in E. lia.
Qed.

Lemma temp_not_base base tmp : is_temp base tmp -> tmp <> base.
Proof.
  intros (c & r & -> & _) E. apply (f_equal (@length N)) in E.
  rewrite app_length in E. simpl in E. lia.
Qed.

Lemma temp_not_backup base tmp : is_temp base tmp -> ~ is_backup base tmp.
Proof.
  intros (c & r & -> & Hc) [s E]. apply app_inv_head in E. injection E as E _.
  unfold DOT in E. lia.
Qed.

(** * Sorting *)

Lemma lex_leb_refl a : lex_leb a a = true.
Proof. induction a; simpl; auto. now rewrite N.eqb_refl. Qed.

Lemma lex_leb_trans a : forall b c, lex_leb a b = true -> lex_leb b c = true -> lex_leb a c = true.
Proof.
  induction a as [|x a IH]; intros [|y b] [|z c]; simpl; auto; try discriminate.
  destruct (N.eqb_spec x y), (N.eqb_spec y z), (N.eqb_spec x z); subst; intros H1 H2;
    try congruence; eauto; lia.
Qed.

Lemma lex_leb_antisym a : forall b, lex_leb a b = true -> lex_leb b a = true -> a = b.
Proof.
  induction a as [|x a IH]; intros [|y b]; simpl; auto; try discriminate.
  destruct (N.eqb_spec x y), (N.eqb_spec y x); subst; intros H1 H2; try congruence; try lia.
  f_equal; auto.
Qed.

Lemma lex_leb_total a : forall b, lex_leb a b = true \/ lex_leb b a = true.
Proof.
  induction a as [|x a IH]; intros [|y b]; simpl; auto.
  destruct (N.eqb_spec x y), (N.eqb_spec y x); subst; try congruence; auto. lia.
Qed.

Definition lex_le a b := lex_leb a b = true.
Definition lex_lt a b := lex_leb b a = false.

Lemma lex_insert_perm x l : Permutation (lex_insert x l) (x :: l).
Proof.
  induction l as [|y l IH]; simpl; auto.
  destruct (lex_leb x y); auto. rewrite IH. apply perm_swap.
Qed.
Lemma lex_sort_perm l : Permutation (lex_sort l) l.
Proof. induction l; simpl; auto. rewrite lex_insert_perm. auto. Qed.

Lemma lex_insert_sorted x l : StronglySorted lex_le l -> StronglySorted lex_le (lex_insert x l).
Proof.
  induction 1 as [|y l Hs IH Hf]; simpl.
  - repeat constructor.
  - destruct (lex_leb x y) eqn:E.
    + constructor; [constructor; auto|]. constructor; auto.
      eapply Forall_impl; [|exact Hf]. intros z Hz. eapply lex_leb_trans; eauto.
    + constructor; auto. rewrite lex_insert_perm. constructor; auto.
      destruct (lex_leb_total x y); [congruence|auto].
Qed.
Lemma lex_sort_sorted l : StronglySorted lex_le (lex_sort l).
Proof. induction l; simpl; [constructor|now apply lex_insert_sorted]. Qed.

Lemma SS_filter {A} (R : A -> A -> Prop) f l : StronglySorted R l -> StronglySorted R (filter f l).
Proof.
  induction 1 as [|x l Hs IH Hf]; simpl; [constructor|].
  destruct (f x); auto. constructor; auto.
  rewrite Forall_forall in *. intros y Hy. apply filter_In in Hy. apply Hf. tauto.
Qed.

Lemma SS_app {A} (R : A -> A -> Prop) l m : StronglySorted R (l ++ m) ->
  forall x y, In x l -> In y m -> R x y.
Proof.
  induction l as [|z l IH]; simpl; intros Hs x y Hx Hy; [tauto|].
  inversion Hs as [|? ? Hs' Hf]; subst. destruct Hx as [->|Hx]; auto.
  rewrite Forall_forall in Hf. apply Hf. apply in_or_app; auto.
Qed.

Lemma SS_unique l : forall m, StronglySorted lex_le l -> StronglySorted lex_le m ->
  Permutation l m -> l = m.
Proof.
  induction l as [|x l IH]; intros m Hl Hm P.
  - apply Permutation_nil in P. now subst.
  - destruct m as [|y m]; [symmetry in P; apply Permutation_nil in P; discriminate|].
    inversion Hl as [|? ? Hl' Fl]; subst. inversion Hm as [|? ? Hm' Fm]; subst.
    rewrite Forall_forall in Fl, Fm.
    assert (x = y).
    { apply lex_leb_antisym.
      - assert (Hy : In y (x :: l)) by (apply (Permutation_in y (Permutation_sym P)); simpl; auto).
        destruct Hy as [->|Hy]; [apply lex_leb_refl|now apply Fl].
      - assert (Hx : In x (y :: m)) by (apply (Permutation_in x P); simpl; auto).
        destruct Hx as [->|Hx]; [apply lex_leb_refl|now apply Fm]. }
    subst y. f_equal. apply IH; auto. eapply Permutation_cons_inv; eauto.
Qed.

(** * Pruning *)

Definition backup_names (d : dir) (base : bytes) : list bytes :=
  filter (has_prefix (base ++ [DOT])) (read_dir d).

Lemma In_backup_names d base n :
  In n (backup_names d base) <-> is_backup base n /\ In n (mkeys d).
Proof.
  unfold backup_names, read_dir. rewrite filter_In, backup_prefix. split; intros [H1 H2]; split; auto.
  - eapply Permutation_in; [apply lex_sort_perm|auto].
  - eapply Permutation_in; [symmetry; apply lex_sort_perm|auto].
Qed.

Lemma backup_names_sorted d base : StronglySorted lex_le (backup_names d base).
Proof. apply SS_filter, lex_sort_sorted. Qed.

Lemma backup_names_NoDup d base : NoDup (mkeys d) -> NoDup (backup_names d base).
Proof.
  intros ND. apply NoDup_filter. eapply Permutation_NoDup; [symmetry; apply lex_sort_perm|auto].
Qed.

Lemma prune_list_eq d base depth : (0 <= depth)%Z ->
  prune_list d base depth =
  firstn (length (backup_names d base) - Z.to_nat depth) (backup_names d base).
Proof.
  intros Hd. unfold prune_list. destruct (Z.ltb_spec depth 0); [lia|].
  fold (backup_names d base). cbv zeta.
  destruct (Z.ltb_spec (Z.of_nat (length (backup_names d base)) - depth) 0).
  - replace (length (backup_names d base) - Z.to_nat depth) with 0 by lia. reflexivity.
  - f_equal. lia.
Qed.

Lemma firstn_lastn {A} (l : list A) n :
  firstn (length l - n) l ++ lastn n l = l.
Proof. unfold lastn. apply firstn_skipn. Qed.

Lemma lastn_length {A} n (l : list A) : length (lastn n l) = min n (length l).
Proof. unfold lastn. rewrite skipn_length. lia. Qed.

(** The directory after a pruning with non-negative depth. *)
Lemma pruned d base depth n : (0 <= depth)%Z -> NoDup (mkeys d) ->
  mget (fs_run d (map FRemove (prune_list d base depth))) n =
  if has_prefix (base ++ [DOT]) n
  then (if mem n (lastn (Z.to_nat depth) (backup_names d base)) then mget d n else None)
  else mget d n.
Proof.
  intros Hd ND. rewrite removes, prune_list_eq by auto.
  set (l := backup_names d base). set (k := Z.to_nat depth).
  pose proof (backup_names_NoDup d base ND) as NDl. fold l in NDl.
  pose proof (firstn_lastn l k) as Efl.
  destruct (has_prefix (base ++ [DOT]) n) eqn:Ep.
  - destruct (mem n (firstn (length l - k) l)) eqn:E1, (mem n (lastn k l)) eqn:E2; auto.
    + exfalso. apply mem_In in E1, E2. rewrite <- Efl in NDl.
      clear -E1 E2 NDl. induction (firstn (length l - k) l) as [|x m IH]; [destruct E1|].
      simpl in NDl. inversion NDl; subst. destruct E1 as [->|E1]; auto.
      apply H1. apply in_or_app; auto.
    + apply mem_false in E1, E2.
      apply mget_None. intros Hi.
      assert (Hl : In n l) by (apply In_backup_names; split; auto; now apply backup_prefix).
      rewrite <- Efl in Hl. apply in_app_or in Hl. tauto.
  - destruct (mem n (firstn (length l - k) l)) eqn:E1; auto.
    exfalso. apply mem_In in E1. assert (Hl : In n l) by (rewrite <- Efl; apply in_or_app; auto).
    apply In_backup_names in Hl. destruct Hl as [Hl _]. apply backup_prefix in Hl. congruence.
Qed.

(** * C05 *)

Lemma save_crash d base tmp stamp created depth chunks es ok done rest :
  save_dir d base tmp stamp created depth chunks = (es, ok) ->
  es = done ++ rest ->
  tmp <> base -> tmp <> base ++ [DOT] ++ stamp ->
  let d' := fs_run d done in
  let backup := base ++ [DOT] ++ stamp in
  let new := concat chunks in
  mget d' base = mget d base \/
  (ok = true /\ mget d' base = Some new) \/
  (created = false /\ done = writes tmp chunks ++ [FRename base backup] /\
   mget d base <> None /\ mget d' base = None /\
   mget d' backup = mget d base /\ mget d' tmp = Some new).
Proof.
  intros Hs He Ht Htb. cbv zeta. unfold save_dir in Hs.
  set (backup := base ++ [DOT] ++ stamp) in *.
  assert (Hbb : backup <> base).
  { intros E. apply (base_not_backup base). exists stamp. now symmetry. }
  (* after the last rename only removals of backups follow *)
  assert (Hrem : forall d1 l, (forall n, In n l -> is_backup base n) ->
            mget (fs_run d1 (map FRemove l)) base = mget d1 base).
  { intros d1 l Hl. rewrite removes. destruct (mem base l) eqn:E; auto.
    apply mem_In in E. exfalso. eapply base_not_backup. eauto. }
  assert (Hpl : forall d1 n, In n (prune_list d1 base depth) -> is_backup base n).
  { intros d1 n Hi. unfold prune_list in Hi.
    destruct (depth <? 0)%Z; [destruct Hi|]. cbv zeta in Hi.
    destruct (_ <? 0)%Z in Hi; [destruct Hi|].
    assert (Hf : In n (filter (has_prefix (base ++ [DOT])) (read_dir d1))).
    { rewrite <- (firstn_skipn (Z.to_nat (Z.of_nat (length (filter (has_prefix (base ++ [DOT])) (read_dir d1))) - depth))).
      apply in_or_app. left. exact Hi. }
    apply filter_In in Hf. now apply backup_prefix. }
  unfold save_effects in Hs. change (FCreate tmp :: map (FAppend tmp) chunks) with (writes tmp chunks) in Hs.
  destruct created.
  - apply pair_equal_spec in Hs; destruct Hs as [Hs Hok]. subst ok.
    rewrite He in Hs. clear He. rewrite <- app_assoc in Hs.
    symmetry in Hs. apply app_prefix in Hs. destruct Hs as [(c & Ew & _)|(c & -> & Er)].
    + left. apply (writes_prefix d tmp chunks done c); auto.
    + destruct c as [|e c].
      * left. rewrite app_nil_r. apply (writes_prefix d tmp chunks _ []); auto. now rewrite app_nil_r.
      * right; left. split; auto. simpl in Er. injection Er as <- Er.
        destruct (map_prefix _ _ _ _ Er) as (l1 & l2 & El & -> & ->).
        rewrite fs_run_app.
        change (FRename tmp base :: map FRemove l1) with ([FRename tmp base] ++ map FRemove l1).
        rewrite fs_run_app, Hrem.
        -- cbn [fs_run fold_left fs_apply].
           change (fold_left fs_apply (writes tmp chunks) d) with (fs_run d (writes tmp chunks)).
           rewrite writes_done, eqb_refl. apply mget_mset_eq.
        -- intros n Hn. eapply Hpl. rewrite El. apply in_or_app; left; exact Hn.
  - destruct (mget d base) as [old|] eqn:Eb.
    + apply pair_equal_spec in Hs; destruct Hs as [Hs Hok]. subst ok.
      rewrite He in Hs. clear He. rewrite <- app_assoc in Hs.
      symmetry in Hs. apply app_prefix in Hs. destruct Hs as [(c & Ew & _)|(c & -> & Er)].
      * left. rewrite <- Eb. apply (writes_prefix d tmp chunks done c); auto.
      * destruct c as [|e c].
        { left. rewrite app_nil_r, <- Eb.
          apply (writes_prefix d tmp chunks _ []); auto. now rewrite app_nil_r. }
        simpl in Er. injection Er as <- Er.
        assert (E1 : forall n, mget (fs_run d (writes tmp chunks ++ [FRename base backup])) n =
                   if eqb n backup then Some old else if eqb n base then None
                   else if eqb n tmp then Some (concat chunks) else mget d n).
        { intros n. rewrite fs_run_app. cbn [fs_run fold_left fs_apply].
          change (fold_left fs_apply (writes tmp chunks) d) with (fs_run d (writes tmp chunks)).
          rewrite writes_done. destruct (eqb_spec base tmp); [congruence|].
          rewrite Eb, mget_mset. destruct (eqb n backup); auto.
          rewrite mget_mdel. destruct (eqb n base); auto. now rewrite writes_done. }
        destruct c as [|e c].
        { right; right. split; auto. split; auto. split; [discriminate|].
          fold backup. rewrite !E1.
          rewrite eqb_refl. destruct (eqb_spec base backup); [congruence|].
          rewrite eqb_refl. destruct (eqb_spec tmp backup); [congruence|].
          destruct (eqb_spec tmp base); [congruence|]. rewrite eqb_refl. auto. }
        right; left. split; auto. simpl in Er. injection Er as <- Er.
        destruct (map_prefix _ _ _ _ Er) as (l1 & l2 & El & -> & ->).
        change (base ++ DOT :: stamp) with backup.
        replace (writes tmp chunks ++ FRename base backup :: FRename tmp base :: map FRemove l1)
          with ((writes tmp chunks ++ [FRename base backup]) ++ [FRename tmp base] ++ map FRemove l1)
          by (rewrite <- app_assoc; reflexivity).
        rewrite app_assoc, fs_run_app, Hrem; [rewrite fs_run_app|].
        -- cbn [fs_run fold_left fs_apply].
           change (fold_left fs_apply (writes tmp chunks ++ [FRename base backup]) d)
             with (fs_run d (writes tmp chunks ++ [FRename base backup])).
           rewrite E1. destruct (eqb_spec tmp backup); [congruence|].
           destruct (eqb_spec tmp base); [congruence|]. rewrite eqb_refl. apply mget_mset_eq.
        -- intros n Hn.
           eapply Hpl. rewrite El. apply in_or_app; left; exact Hn.
    + apply pair_equal_spec in Hs; destruct Hs as [Hs Hok]. left. rewrite <- Eb.
      apply (writes_prefix d tmp chunks done rest); auto. now rewrite Hs.
Qed.

(** * The directory after a complete Save *)

Lemma save_result d base tmp stamp depth chunks es :
  save_dir d base tmp stamp false depth chunks = (es, true) ->
  (0 <= depth)%Z -> NoDup (mkeys d) -> tmp <> base -> tmp <> base ++ [DOT] ++ stamp ->
  exists d1 old, mget d base = Some old /\ NoDup (mkeys d1) /\
    (forall n, mget d1 n = if eqb n base then Some (concat chunks)
       else if eqb n tmp then None
       else if eqb n (base ++ [DOT] ++ stamp) then Some old else mget d n) /\
    fs_run d es = fs_run d1 (map FRemove (prune_list d1 base depth)).
Proof.
  intros Hs Hd ND Ht Htb. unfold save_dir, save_effects in Hs.
  set (backup := base ++ [DOT] ++ stamp) in *.
  assert (Hbb : backup <> base).
  { intros E. apply (base_not_backup base). exists stamp. now symmetry. }
  change (FCreate tmp :: map (FAppend tmp) chunks) with (writes tmp chunks) in Hs.
  destruct (mget d base) as [old|] eqn:Eb; [|discriminate].
  apply pair_equal_spec in Hs; destruct Hs as [<- _].
  set (pre := writes tmp chunks ++ [FRename base backup; FRename tmp base]).
  exists (fs_run d pre), old. split; auto. split; [|split].
  - assert (HND : forall es d0, NoDup (mkeys d0) -> NoDup (mkeys (fs_run d0 es))).
    { induction es as [|e es IH]; intros d0 H0; auto. apply IH.
      destruct e as [n|n c|a b|n]; simpl.
      - now apply NoDup_mset.
      - destruct (mget d0 n); auto. now apply NoDup_mset.
      - destruct (mget d0 a); auto. apply NoDup_mset, NoDup_mdel. auto.
      - now apply NoDup_mdel. }
    auto.
  - intros n. unfold pre. rewrite fs_run_app. cbn [fs_run fold_left fs_apply].
    change (fold_left fs_apply (writes tmp chunks) d) with (fs_run d (writes tmp chunks)).
    rewrite writes_done. destruct (eqb_spec base tmp); [congruence|]. rewrite Eb.
    rewrite mget_mset. destruct (eqb_spec tmp backup); [congruence|].
    rewrite mget_mdel. destruct (eqb_spec tmp base); [congruence|].
    rewrite writes_done, eqb_refl. rewrite mget_mset. destruct (eqb_spec n base); auto.
    rewrite mget_mdel. destruct (eqb_spec n tmp); auto.
    rewrite mget_mset. destruct (eqb_spec n backup); auto.
    rewrite mget_mdel. destruct (eqb_spec n base); [congruence|].
    rewrite writes_done. destruct (eqb_spec n tmp); [congruence|auto].
  - rewrite fs_run_app. reflexivity.
Qed.

(** One Save: what is kept, removed and untouched. *)
Lemma save_prunes d base tmp stamp depth chunks es :
  save_dir d base tmp stamp false depth chunks = (es, true) ->
  (0 <= depth)%Z -> NoDup (mkeys d) -> is_temp base tmp ->
  let d' := fs_run d es in
  let before n := is_backup base n /\ (n = base ++ [DOT] ++ stamp \/ mget d n <> None) in
  let kept n := is_backup base n /\ mget d' n <> None in
  (exists l, NoDup l /\ (forall n, In n l <-> kept n) /\ length l <= Z.to_nat depth /\
     (length l < Z.to_nat depth -> forall n, before n -> kept n)) /\
  (forall n, kept n -> before n) /\
  (forall m n, before m -> ~ kept m -> kept n -> lex_leb m n = true) /\
  mget d' base = Some (concat chunks) /\ mget d' tmp = None /\
  (forall n, n <> base -> n <> tmp -> ~ is_backup base n -> mget d' n = mget d n) /\
  (forall n, kept n -> n <> base ++ [DOT] ++ stamp -> mget d' n = mget d n).
Proof.
  intros Hs Hd ND Htmp.
  assert (Ht : tmp <> base) by (now apply temp_not_base).
  assert (Htb : ~ is_backup base tmp) by (now apply temp_not_backup).
  set (backup := base ++ [DOT] ++ stamp) in *.
  assert (Htb' : tmp <> backup) by (intros E; apply Htb; exists stamp; auto).
  destruct (save_result _ _ _ _ _ _ _ Hs Hd ND Ht Htb') as (d1 & old & Eb & ND1 & E1 & Er).
  fold backup in E1. cbv zeta. rewrite Er.
  set (L := backup_names d1 base). set (k := Z.to_nat depth).
  assert (EP : forall n, mget (fs_run d1 (map FRemove (prune_list d1 base depth))) n =
     if has_prefix (base ++ [DOT]) n then (if mem n (lastn k L) then mget d1 n else None)
     else mget d1 n) by (intros; now apply pruned).
  assert (HnB : forall n, ~ is_backup base n -> has_prefix (base ++ [DOT]) n = false).
  { intros n Hn. destruct (has_prefix _ n) eqn:E; auto. apply backup_prefix in E. tauto. }
  assert (Hbase : has_prefix (base ++ [DOT]) base = false) by (apply HnB, base_not_backup).
  assert (HL : forall n, In n L <-> is_backup base n /\ (n = backup \/ mget d n <> None)).
  { intros n. unfold L. rewrite In_backup_names.
    assert (Hk : In n (mkeys d1) <-> mget d1 n <> None).
    { rewrite mget_None. destruct (in_dec (fun a b => EqB_dec a b) n (mkeys d1)); tauto. }
    rewrite Hk, E1. split; intros [Hb H]; split; auto.
    - destruct (eqb_spec n base) as [->|]; [now apply base_not_backup in Hb|].
      destruct (eqb_spec n tmp) as [->|]; [tauto|].
      destruct (eqb_spec n backup); auto.
    - destruct (eqb_spec n base) as [->|]; [now apply base_not_backup in Hb|].
      destruct (eqb_spec n tmp) as [->|]; [tauto|].
      destruct (eqb_spec n backup); [discriminate|]. destruct H; congruence. }
  assert (Hlast : forall n, In n (lastn k L) -> In n L).
  { intros n Hn. rewrite <- (firstn_lastn L k). apply in_or_app; auto. }
  assert (HK : forall n, In n (lastn k L) <-> is_backup base n /\
      mget (fs_run d1 (map FRemove (prune_list d1 base depth))) n <> None).
  { intros n. rewrite EP. split.
    - intros Hn. assert (Hb := proj1 (proj1 (HL n) (Hlast n Hn))). split; auto.
      apply backup_prefix in Hb. rewrite Hb. apply mem_In in Hn as Hm. rewrite Hm.
      apply Hlast in Hn. unfold L in Hn. apply In_backup_names in Hn. rewrite mget_None. tauto.
    - intros [Hb H]. apply backup_prefix in Hb. rewrite Hb in H.
      destruct (mem n (lastn k L)) eqn:E; [now apply mem_In|congruence]. }
  assert (NDL : NoDup L) by (now apply backup_names_NoDup).
  split; [|split; [|split; [|split; [|split; [|split]]]]].
  - exists (lastn k L). split; [|split; [|split]].
    + rewrite <- (firstn_lastn L k) in NDL. clear -NDL.
      induction (firstn (length L - k) L); auto. inversion NDL; auto.
    + exact HK.
    + rewrite lastn_length. lia.
    + intros Hlt n Hn. apply HK. apply HL in Hn. rewrite lastn_length in Hlt.
      unfold lastn. replace (length L - k) with 0 by lia. exact Hn.
  - intros n Hn. apply HL, Hlast, HK. exact Hn.
  - intros m n Hm Hnk Hn. apply HL in Hm. apply HK in Hn.
    assert (Hm' : In m (firstn (length L - k) L)).
    { rewrite <- (firstn_lastn L k) in Hm. apply in_app_or in Hm. destruct Hm as [Hm|Hm]; auto.
      exfalso. apply Hnk, HK. exact Hm. }
    pose proof (backup_names_sorted d1 base) as HS. fold L in HS.
    rewrite <- (firstn_lastn L k) in HS. exact (SS_app _ _ _ HS m n Hm' Hn).
  - rewrite EP, Hbase, E1, eqb_refl. reflexivity.
  - rewrite EP, (HnB _ Htb), E1. destruct (eqb_spec tmp base); [congruence|].
    now rewrite eqb_refl.
  - intros n Hnb Hnt Hn. rewrite EP, (HnB _ Hn), E1.
    destruct (eqb_spec n base); [congruence|]. destruct (eqb_spec n tmp); [congruence|].
    destruct (eqb_spec n backup) as [->|]; auto. exfalso. apply Hn. exists stamp; auto.
  - intros n [Hb Hn] Hne. rewrite EP in *. apply backup_prefix in Hb as Hp. rewrite Hp in *.
    destruct (mem n (lastn k L)) eqn:E; [|congruence]. rewrite E1.
    destruct (eqb_spec n base) as [->|]; [now apply base_not_backup in Hb|].
    destruct (eqb_spec n tmp) as [->|]; [tauto|].
    destruct (eqb_spec n backup); [congruence|auto].
Qed.

(** * Time stamps *)

Lemma lex_lt_app_l a : forall b c d, length a = length b -> lex_lt a b -> lex_lt (a ++ c) (b ++ d).
Proof.
  unfold lex_lt. induction a as [|x a IH]; intros [|y b] c d Hl H; simpl in *; try discriminate.
  destruct (N.eqb_spec y x); auto.
Qed.
Lemma lex_lt_app_r p a b : lex_lt a b -> lex_lt (p ++ a) (p ++ b).
Proof. unfold lex_lt. induction p; simpl; auto. rewrite N.eqb_refl. auto. Qed.

Lemma pad_length w : forall n, length (pad w n) = w.
Proof. induction w; intros n; simpl; auto. rewrite app_length, IHw. simpl. lia. Qed.

Lemma pad_lt w : forall a b, (a < b)%N -> (b < 10 ^ N.of_nat w)%N -> lex_lt (pad w a) (pad w b).
Proof.
  induction w as [|w IH]; intros a b Hab Hb.
  - change (10 ^ N.of_nat 0)%N with 1%N in Hb. lia.
  - cbn [pad]. rewrite Nat2N.inj_succ, N.pow_succ_r' in Hb.
    destruct (N.eq_dec (a / 10) (b / 10)) as [E|E].
    + rewrite E. apply lex_lt_app_r. unfold lex_lt. cbn [lex_leb].
      pose proof (N.div_mod a 10). pose proof (N.div_mod b 10).
      destruct (N.eqb_spec (48 + b mod 10) (48 + a mod 10)); [lia|].
      apply N.ltb_ge. lia.
    + apply lex_lt_app_l; [now rewrite !pad_length|]. apply IH.
      * pose proof (N.div_le_mono a b 10). lia.
      * apply N.div_lt_upper_bound; lia.
Qed.

Lemma stamp_lt t u : valid_time t -> valid_time u -> time_lt t u -> lex_lt (stamp_of t) (stamp_of u).
Proof.
  destruct t as [[a b] c], u as [[a' b'] c']. unfold valid_time, time_lt, stamp_of.
  intros _ (H1 & H2 & H3) [H|[-> [H|[-> H]]]].
  - apply lex_lt_app_l; [now rewrite !pad_length|]. apply pad_lt; auto.
  - apply lex_lt_app_r. apply lex_lt_app_r.
    apply lex_lt_app_l; [now rewrite !pad_length|]. apply pad_lt; auto.
  - do 4 apply lex_lt_app_r. apply pad_lt; auto.
Qed.

(** * Histories of saves *)

Lemma skipn_skipn' {A} x : forall y (l : list A), skipn x (skipn y l) = skipn (x + y) l.
Proof.
  intros y. induction y as [|y IH]; intros l.
  - rewrite Nat.add_0_r. reflexivity.
  - rewrite Nat.add_succ_r. destruct l; simpl; [apply skipn_nil|apply IH].
Qed.

Lemma lastn_lastn_snoc {A} n (l : list A) x :
  lastn n (lastn n l ++ [x]) = lastn n (l ++ [x]).
Proof.
  unfold lastn. rewrite !app_length, skipn_length. simpl.
  destruct (le_lt_dec (length l) n) as [Hl|Hl].
  - replace (length l - n) with 0 by lia. simpl. f_equal. lia.
  - replace (length l - (length l - n) + 1 - n) with 1 by lia.
    replace (length l + 1 - n) with (1 + (length l - n)) by lia.
    rewrite <- skipn_skipn'. rewrite (skipn_app (length l - n)).
    replace (length l - n - length l) with 0 by lia. reflexivity.
Qed.

Lemma lastn_map {A B} (f : A -> B) n l : map f (lastn n l) = lastn n (map f l).
Proof. unfold lastn. rewrite map_length. symmetry. apply skipn_map. Qed.

Lemma lastn_incl {A} n (l : list A) x : In x (lastn n l) -> In x l.
Proof. intros H. rewrite <- (firstn_lastn l n). apply in_or_app; auto. Qed.

Lemma SS_snoc l x : StronglySorted lex_le l -> (forall y, In y l -> lex_le y x) ->
  StronglySorted lex_le (l ++ [x]).
Proof.
  induction 1 as [|y l Hs IH Hf]; intros Hx; simpl.
  - repeat constructor.
  - constructor.
    + apply IH. intros z Hz. apply Hx. simpl; auto.
    + apply Forall_app. split; auto. constructor; auto. apply Hx. simpl; auto.
Qed.

Lemma mget_app_in {K V} `{EqB K} (l m : list (K * V)) k :
  mget (l ++ m) k = match mget l k with Some v => Some v | None => mget m k end.
Proof. induction l as [|[a v] l IH]; simpl; auto. destruct (eqb k a); auto. Qed.

Lemma NoDup_lastn {A} n (l : list A) : NoDup l -> NoDup (lastn n l).
Proof.
  intros ND. rewrite <- (firstn_lastn l n) in ND.
  induction (firstn (length l - n) l); auto. inversion ND; auto.
Qed.

Lemma lastn_mget {V} n (l : list (bytes * V)) k : NoDup (mkeys l) ->
  mget (lastn n l) k = if mem k (lastn n (mkeys l)) then mget l k else None.
Proof.
  intros ND. assert (E : lastn n (mkeys l) = mkeys (lastn n l)) by (symmetry; apply lastn_map).
  assert (NDl : NoDup (mkeys (lastn n l))).
  { unfold mkeys. rewrite lastn_map. now apply NoDup_lastn. }
  rewrite E. destruct (mget (lastn n l) k) as [v|] eqn:Eg.
  - assert (Hm : mem k (mkeys (lastn n l)) = true).
    { apply mem_In. apply mget_Some_keys in Eg. exact Eg. }
    rewrite Hm. symmetry. apply In_mget; auto. apply mget_In in Eg. now apply lastn_incl in Eg.
  - apply mget_None in Eg. destruct (mem k (mkeys (lastn n l))) eqn:Em; auto.
    apply mem_In in Em. tauto.
Qed.

Definition call_time (c : save_call) : N * N * N := snd (fst c).

Lemma save_history_gen base depth : (0 <= depth)%Z ->
  forall h d old log,
  NoDup (mkeys d) -> mget d base = Some old ->
  Forall (fun c => is_temp base (fst (fst c)) /\ valid_time (call_time c)) h ->
  StronglySorted (fun c c' => time_lt (call_time c) (call_time c')) h ->
  (* backups so far *)
  NoDup (mkeys log) ->
  StronglySorted lex_le (mkeys log) ->
  (forall n, In n (mkeys log) -> is_backup base n) ->
  (forall n c, In n (mkeys log) -> In c h -> lex_lt n (base ++ [DOT] ++ stamp_of (call_time c))) ->
  (forall n, is_backup base n -> mget d n = mget (lastn (Z.to_nat depth) log) n) ->
  exists d', save_all d base depth h = Some d' /\
    mget d' base = Some (last_saved old h) /\
    (forall n, is_backup base n ->
       mget d' n = mget (lastn (Z.to_nat depth) (log ++ backups_made base old h)) n).
Proof.
  intros Hd. induction h as [|[[tmp t] chunks] h IH];
    intros d old log ND Eb Hh Hs NDl Sl Bl Ll Dl.
  - exists d. simpl. rewrite app_nil_r. auto.
  - inversion Hh as [|? ? [Htmp Hv] Hh']; subst. simpl in Htmp.
    unfold call_time in Hv; simpl in Hv.
    inversion Hs as [|? ? Hs' Hlt]; subst.
    set (backup := base ++ [DOT] ++ stamp_of t).
    assert (Hbk : is_backup base backup) by (exists (stamp_of t); auto).
    cbn [save_all].
    destruct (save_dir d base tmp (stamp_of t) false depth chunks) as [es ok] eqn:Es.
    assert (ok = true).
    { unfold save_dir, save_effects in Es. rewrite Eb in Es. now inversion Es. }
    subst ok.
    assert (Ht : tmp <> base) by (now apply temp_not_base).
    assert (Htb : tmp <> backup).
    { intros E. apply (temp_not_backup base tmp Htmp). now rewrite E. }
    destruct (save_result _ _ _ _ _ _ _ Es Hd ND Ht Htb) as (d1 & old' & Eb' & ND1 & E1 & Er).
    rewrite Eb in Eb'. injection Eb' as <-. fold backup in E1.
    set (k := Z.to_nat depth) in *.
    set (log' := log ++ [(backup, old)]).
    assert (Hlog' : mkeys log' = mkeys log ++ [backup]).
    { unfold log', mkeys. now rewrite map_app. }
    assert (Hnew : ~ In backup (mkeys log)).
    { intros Hi. specialize (Ll backup (tmp, t, chunks) Hi (or_introl eq_refl)).
      unfold call_time in Ll; cbn [fst snd] in Ll. fold backup in Ll. unfold lex_lt in Ll.
      rewrite lex_leb_refl in Ll. discriminate. }
    assert (NDl' : NoDup (mkeys log')).
    { rewrite Hlog'. 
      eapply Permutation_NoDup; [apply Permutation_cons_append|]. constructor; auto. }
    assert (Sl' : StronglySorted lex_le (mkeys log')).
    { rewrite Hlog'. apply SS_snoc; auto. intros y Hy.
      specialize (Ll y (tmp, t, chunks) Hy (or_introl eq_refl)).
      unfold call_time in Ll; cbn [fst snd] in Ll. fold backup in Ll. unfold lex_lt, lex_le in *.
      destruct (lex_leb_total y backup); congruence. }
    (* the backup names present before pruning *)
    assert (EL : backup_names d1 base = lastn k (mkeys log) ++ [backup]).
    { apply SS_unique.
      - apply backup_names_sorted.
      - apply SS_snoc.
        + rewrite <- (firstn_lastn (mkeys log) k) in Sl. clear -Sl.
          induction (firstn (length (mkeys log) - k) (mkeys log)); auto.
          apply IHl. inversion Sl; auto.
        + intros y Hy. apply lastn_incl in Hy.
          specialize (Ll y (tmp, t, chunks) Hy (or_introl eq_refl)).
          unfold call_time in Ll; cbn [fst snd] in Ll. fold backup in Ll. unfold lex_lt, lex_le in *.
          destruct (lex_leb_total y backup); congruence.
      - apply NoDup_Permutation.
        + now apply backup_names_NoDup.
        + eapply Permutation_NoDup; [apply Permutation_cons_append|]. constructor.
          * intros Hi. apply lastn_incl in Hi. auto.
          * now apply NoDup_lastn.
        + intros n. rewrite In_backup_names, in_app_iff.
          assert (Hk : In n (mkeys d1) <-> mget d1 n <> None).
          { rewrite mget_None. destruct (in_dec (fun a b => EqB_dec a b) n (mkeys d1)); tauto. }
          rewrite Hk, E1. simpl. split.
          * intros [Hb H]. destruct (eqb_spec n base) as [->|]; [now apply base_not_backup in Hb|].
            destruct (eqb_spec n tmp) as [->|]; [tauto|].
            destruct (eqb_spec n backup) as [->|]; auto.
            left. rewrite Dl in H by auto. rewrite lastn_mget in H by auto.
            destruct (mem n (lastn k (mkeys log))) eqn:Em; [now apply mem_In|congruence].
          * intros [Hi|[<-|[]]].
            -- assert (Hb : is_backup base n) by (apply Bl; now apply lastn_incl in Hi).
               split; auto.
               destruct (eqb_spec n base) as [->|]; [now apply base_not_backup in Hb|].
               destruct (eqb_spec n tmp) as [->|]; [now apply (temp_not_backup base tmp) in Hb|].
               destruct (eqb_spec n backup); [discriminate|].
               rewrite Dl by auto. rewrite lastn_mget by auto.
               apply mem_In in Hi as Hm. rewrite Hm. apply lastn_incl in Hi.
               rewrite mget_None. tauto.
            -- split; auto.
               destruct (eqb_spec backup base) as [E|]; [rewrite E in Hbk; now apply base_not_backup in Hbk|].
               destruct (eqb_spec backup tmp); [congruence|]. now rewrite eqb_refl. }
    assert (Dl' : forall n, is_backup base n -> mget (fs_run d es) n = mget (lastn k log') n).
    { intros n Hb. rewrite Er, pruned by auto. apply backup_prefix in Hb as Hp. rewrite Hp.
      fold k. rewrite EL, lastn_lastn_snoc, <- Hlog', lastn_mget by auto.
      destruct (mem n (lastn k (mkeys log'))) eqn:Em; auto.
      rewrite E1. destruct (eqb_spec n base) as [->|]; [now apply base_not_backup in Hb|].
      destruct (eqb_spec n tmp) as [->|]; [now apply (temp_not_backup base tmp) in Hb|].
      unfold log'. rewrite mget_app_in.
      destruct (eqb_spec n backup) as [->|Hnb].
      - assert (E : mget log backup = None) by (now apply mget_None). rewrite E. simpl.
        now rewrite eqb_refl.
      - simpl. destruct (eqb_spec n backup); [congruence|].
        rewrite Dl by auto. rewrite lastn_mget by auto.
        assert (Hm : mem n (lastn k (mkeys log)) = true).
        { apply mem_In in Em. rewrite Hlog', <- lastn_lastn_snoc in Em.
          apply lastn_incl in Em. apply in_app_or in Em.
          destruct Em as [Em|[Em|[]]]; [now apply mem_In|congruence]. }
        rewrite Hm. destruct (mget log n); auto. }
    destruct (IH (fs_run d es) (concat chunks) log') as (d' & E' & M' & B'); auto.
    + rewrite Er. clear -ND1. revert d1 ND1.
      assert (HND : forall l (d0 : dir), NoDup (mkeys d0) -> NoDup (mkeys (fs_run d0 (map FRemove l)))).
      { induction l as [|x l IHl]; intros d0 H0; auto. apply IHl. now apply NoDup_mdel. }
      auto.
    + rewrite Er, pruned by auto.
      assert (Hp : has_prefix (base ++ [DOT]) base = false).
      { destruct (has_prefix _ base) eqn:E; auto. apply backup_prefix in E. now apply base_not_backup in E. }
      now rewrite Hp, E1, eqb_refl.
    + intros n. rewrite Hlog', in_app_iff. simpl. intros [H|[<-|[]]]; auto.
    + intros n c Hi Hc. rewrite Hlog', in_app_iff in Hi. destruct Hi as [Hi|[<-|[]]].
      * apply Ll; simpl; auto.
      * unfold backup. do 2 apply lex_lt_app_r. rewrite Forall_forall in Hlt, Hh'.
        apply stamp_lt; auto. now apply Hh'.
    + exists d'. split; auto. split; auto.
      intros n Hn. rewrite B' by auto. unfold log'. rewrite <- app_assoc. reflexivity.
Qed.

Lemma save_history base depth d old h :
  (0 <= depth)%Z -> NoDup (mkeys d) -> mget d base = Some old ->
  (forall n, is_backup base n -> mget d n = None) ->
  Forall (fun c => is_temp base (fst (fst c)) /\ valid_time (call_time c)) h ->
  StronglySorted (fun c c' => time_lt (call_time c) (call_time c')) h ->
  exists d', save_all d base depth h = Some d' /\
    mget d' base = Some (last_saved old h) /\
    (forall n, is_backup base n ->
       mget d' n = mget (lastn (Z.to_nat depth) (backups_made base old h)) n).
Proof.
  intros Hd ND Eb Hnb Hh Hs.
  apply (save_history_gen base depth Hd h d old []); auto; try (now constructor);
    try (intros n H; now destruct H).
Qed.
