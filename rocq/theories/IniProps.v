(** Properties C03 to C06: the ini database. *)
From Verif Require Import Base IniModel IniMemProofs IniFileProofs IniDiskProofs.

(** C03: after any history of calls (newest first) on a database opened with
    contents [t0], every call returns what the history says: [last_value] is the
    last successful Set not undone since, [table_exists] whether the table is
    there. *)
Theorem C03_faithful_map : forall t0 created h o,
  wf_tables t0 ->
  result_ok t0 h o (snd (ini_step (ini_after (opened t0 created) h) o)).
Proof. exact ini_history. Qed.
Print Assumptions C03_faithful_map.

(** Every file that opens gives contents that meet the hypothesis of C03. *)
Theorem C03_opened_files : forall content t, parse content = Some t -> wf_tables t.
Proof. exact parse_wf. Qed.
Print Assumptions C03_opened_files.

Example C03_case :
  wf_tables [([], []); (bs "a", [(bs "k", bs "0")])] /\
  let d := ini_after (opened [([], []); (bs "a", [(bs "k", bs "0")])] false)
    [IDelTable (bs "b"); ISet (bs "b") (bs "k") (bs "2"); ISet (bs "a") (bs "k") (bs "1");
     INewTable (bs "b")] in
  snd (ini_step d (IGet (bs "a") (bs "k"))) = OGet (Ok (bs "1")) /\
  snd (ini_step d (IGet (bs "b") (bs "k"))) = OGet (Err ErrNotFound) /\
  snd (ini_step d (ISet (bs "b") (bs "k") (bs "3"))) = OErr (Some ErrNotFound).
Proof.
  split; [|repeat split; reflexivity].
  split; [repeat constructor; simpl; intuition discriminate|].
  intros t s. cbn [mget]. destruct (eqb t []), (eqb t (bs "a")); intros E; try discriminate;
    injection E as <-; repeat constructor; simpl; tauto.
Qed.

(** C03: a call that reports an error changes nothing. *)
Theorem C03_failed_unchanged : forall d o e,
  snd (ini_step d o) = OErr (Some e) -> fst (ini_step d o) = d.
Proof. exact ini_failed_unchanged. Qed.
Print Assumptions C03_failed_unchanged.

(** C03: a call after which some Get answers differently marks the database for
    saving. *)
Theorem C03_changed_dirty : forall d o t k,
  ini_get (fst (ini_step d o)) t k <> ini_get d t k -> db_dirty (fst (ini_step d o)) = true.
Proof. exact ini_changed_dirty. Qed.
Print Assumptions C03_changed_dirty.

(** C04: a clean database whose unnamed table is not mixed with others is read
    back unchanged, in every iteration order; and only such databases are. *)
Theorem C04_save_reopen_iff : forall t,
  is_map t -> clean_db t ->
  ((forall order, iterates t order ->
      exists t', parse (render order) = Some t' /\ same_db t t') <-> unmixed t).
Proof. exact save_reopen_iff. Qed.
Print Assumptions C04_save_reopen_iff.

Example C04_case :
  exists t', parse (render [(bs "b", [(bs "x", bs "1 = 2"); (bs "y", [])]); ([], []); (bs "a", [])])
             = Some t' /\ lookup t' (bs "b") (bs "x") = Some (bs "1 = 2") /\
             lookup t' (bs "b") (bs "y") = Some [] /\ mhas t' (bs "a") = true.
Proof. eexists. split; [vm_compute; reflexivity|]. repeat split; reflexivity. Qed.

(** C04 from the caller's side: calls with clean arguments, save in any order,
    reopen: exactly the records the calls left. *)
Theorem C04_history_save_reopen : forall t0 created h order,
  wf_tables t0 -> clean_db t0 -> Forall clean_op h ->
  (forall k, last_value t0 h [] k = None) \/ (forall n, table_exists t0 h n = true -> n = []) ->
  iterates (db_tables (ini_after (opened t0 created) h)) order ->
  exists t', parse (render order) = Some t' /\
    (forall n k, lookup t' n k = last_value t0 h n k) /\
    (forall n, n <> [] -> (In n (mkeys t') <-> table_exists t0 h n = true)).
Proof. exact history_save_reopen. Qed.
Print Assumptions C04_history_save_reopen.

Example C04_history_case :
  let h := [ISet (bs "users") (bs "alice") (bs "key = value"); INewTable (bs "users")] in
  wf_tables [([], [])] /\ clean_db [([], [])] /\ Forall clean_op h /\
  (forall k, last_value [([], [])] h [] k = None) /\
  iterates (db_tables (ini_after (opened [([], [])] true) h))
    [(bs "users", [(bs "alice", bs "key = value")]); ([], [])].
Proof.
  cbv zeta. split; [|split; [|split; [|split]]].
  - apply (parse_wf []). reflexivity.
  - repeat constructor; simpl; intuition discriminate.
  - repeat constructor; simpl; try (intuition discriminate).
  - intros k. reflexivity.
  - exists [(bs "users", [(bs "alice", bs "key = value")]); ([], [])]. split.
    + vm_compute. apply perm_swap.
    + repeat constructor; reflexivity.
Qed.

(** C04, the other half: every clean mixed database has an iteration order that
    loses a record of the unnamed table. *)
Theorem C04_mixed_loses : forall t,
  is_map t -> clean_db t -> ~ unmixed t ->
  exists order t' k v, iterates t order /\ parse (render order) = Some t' /\
    lookup t [] k = Some v /\ lookup t' [] k = None.
Proof. exact mixed_loses. Qed.
Print Assumptions C04_mixed_loses.

Example C04_mixed_case :
  exists t', parse (render [(bs "n", [(bs "k", bs "1")]); ([], [(bs "k", bs "2")])]) = Some t' /\
  lookup t' [] (bs "k") = None /\ lookup t' (bs "n") (bs "k") = Some (bs "2").
Proof. eexists. split; [vm_compute; reflexivity|]. split; reflexivity. Qed.

(** C04, finding: a table name with a newline in it makes the saved file
    impossible to open, whatever else is stored. *)
Theorem C04_newline_name_unopenable : forall pre post a b rs,
  Forall clean_table pre -> clean a -> a <> [] -> ~ In EQ a -> last a 0%N <> RBR ->
  parse (render (pre ++ (a ++ LF :: b, rs) :: post)) = None.
Proof. exact newline_name_unopenable. Qed.
Print Assumptions C04_newline_name_unopenable.

Example C04_newline_case :
  parse (render [([], []); (bs "in" ++ LF :: bs "vite", [(bs "k", bs "v")])]) = None.
Proof. reflexivity. Qed.

(** C04, finding: a value with newlines can create records in other tables. *)
Theorem C04_value_injection_refuted :
  exists v t', parse (render [(bs "t", [(bs "k", v)]); ([], [])]) = Some t' /\
    lookup t' (bs "other") (bs "x") = Some (bs "y").
Proof.
  exists (bs "v" ++ LF :: bs "[other]" ++ LF :: bs "x = y"). eexists.
  split; [vm_compute; reflexivity|]. reflexivity.
Qed.
Print Assumptions C04_value_injection_refuted.

(** C05: at every crash point ([done] is any prefix of the effects of Save) the
    main file is as before, or (if Save would have succeeded) complete and new;
    except right between the two renames, where it is missing but the backup
    holds the old and the temporary file the new contents. *)
Theorem C05_crash : forall d base tmp stamp created depth chunks es ok done rest,
  save_dir d base tmp stamp created depth chunks = (es, ok) ->
  es = done ++ rest ->
  tmp <> base -> tmp <> base ++ [DOT] ++ stamp ->
  let d' := fs_run d done in
  let backup := base ++ [DOT] ++ stamp in
  let new := concat chunks in
  mget d' base = mget d base \/
  (ok = true /\ mget d' base = Some new) \/
  (created = false /\ done = writes tmp chunks ++ [FRename base backup] /\
   mget d base <> None /\ mget d' base = None /\
   mget d' backup = mget d base /\ mget d' tmp = Some new).
Proof. exact save_crash. Qed.
Print Assumptions C05_crash.

Example C05_case :
  exists es, save_dir [(bs "db", bs "old")] (bs "db") (bs "db123") (bs "20260101.000000.000000000")
    false 5 [bs "ne"; bs "w"] = (es, true) /\
  map (fun k => mget (fs_run [(bs "db", bs "old")] (firstn k es)) (bs "db")) [0;1;2;3;4;5] =
  [Some (bs "old"); Some (bs "old"); Some (bs "old"); Some (bs "old"); None; Some (bs "new")].
Proof. eexists. split; vm_compute; reflexivity. Qed.

(** C05, finding: after a crash between the renames, opening with create set
    silently starts an empty database. *)
Theorem C05_reopen_after_crash_refuted :
  exists d base tmp stamp depth chunks es done rest t,
    save_dir d base tmp stamp false depth chunks = (es, true) /\ es = done ++ rest /\
    is_temp base tmp /\
    ini_open d base true = OpenOk t /\ lookup t [] (bs "k") = Some (bs "v") /\
    ini_open (fs_run d done) base true = OpenCreated.
Proof.
  exists [(bs "db", bs "k = v")], (bs "db"), (bs "db1"), (bs "s"), 5%Z, [bs "k = w"].
  eexists. exists [FCreate (bs "db1"); FAppend (bs "db1") (bs "k = w"); FRename (bs "db") (bs "db.s")].
  eexists. eexists.
  split; [vm_compute; reflexivity|]. split; [simpl; reflexivity|].
  split; [exists 49%N, []; split; [reflexivity|lia]|].
  split; [vm_compute; reflexivity|]. split; reflexivity.
Qed.
Print Assumptions C05_reopen_after_crash_refuted.

(** C06: one successful Save on an opened database: at most [depth] backups are
    left, all of them if there are fewer, names removed sort before names kept,
    and nothing but the main file, the temporary file and backups is touched. *)
Theorem C06_prune : forall d base tmp stamp depth chunks es,
  save_dir d base tmp stamp false depth chunks = (es, true) ->
  (0 <= depth)%Z -> NoDup (mkeys d) -> is_temp base tmp ->
  let d' := fs_run d es in
  let before n := is_backup base n /\ (n = base ++ [DOT] ++ stamp \/ mget d n <> None) in
  let kept n := is_backup base n /\ mget d' n <> None in
  (exists l, NoDup l /\ (forall n, In n l <-> kept n) /\ length l <= Z.to_nat depth /\
     (length l < Z.to_nat depth -> forall n, before n -> kept n)) /\
  (forall n, kept n -> before n) /\
  (forall m n, before m -> ~ kept m -> kept n -> lex_leb m n = true) /\
  mget d' base = Some (concat chunks) /\ mget d' tmp = None /\
  (forall n, n <> base -> n <> tmp -> ~ is_backup base n -> mget d' n = mget d n) /\
  (forall n, kept n -> n <> base ++ [DOT] ++ stamp -> mget d' n = mget d n).
Proof. exact save_prunes. Qed.
Print Assumptions C06_prune.

(** C06: name order is time order. *)
Theorem C06_stamps_sort_by_time : forall t u,
  valid_time t -> valid_time u -> time_lt t u -> lex_leb (stamp_of u) (stamp_of t) = false.
Proof. exact stamp_lt. Qed.
Print Assumptions C06_stamps_sort_by_time.

(** C06: after any history of saves at increasing times the main file holds what
    was saved last and the backups are exactly the last [depth] ones, each with
    the contents the main file had before that save. *)
Theorem C06_history : forall base depth d old h,
  (0 <= depth)%Z -> NoDup (mkeys d) -> mget d base = Some old ->
  (forall n, is_backup base n -> mget d n = None) ->
  Forall (fun c => is_temp base (fst (fst c)) /\ valid_time (call_time c)) h ->
  StronglySorted (fun c c' => time_lt (call_time c) (call_time c')) h ->
  exists d', save_all d base depth h = Some d' /\
    mget d' base = Some (last_saved old h) /\
    (forall n, is_backup base n ->
       mget d' n = mget (lastn (Z.to_nat depth) (backups_made base old h)) n).
Proof. exact save_history. Qed.
Print Assumptions C06_history.

Example C06_case :
  match save_all [(bs "db", bs "0"); (bs "other", bs "o")] (bs "db") 2
    [(bs "db5", (20260101, 100000, 7), [bs "1"]); (bs "db6", (20260101, 100000, 8), [bs "2"]);
     (bs "db5", (20260101, 100001, 0), [bs "3"]); (bs "db9", (20270101, 0, 0), [bs "4"])]%N with
  | Some d => read_dir d = [bs "db"; bs "db.20260101.100001.000000000";
                            bs "db.20270101.000000.000000000"; bs "other"] /\
              mget d (bs "db") = Some (bs "4") /\
              mget d (bs "db.20260101.100001.000000000") = Some (bs "2")
  | None => False
  end.
Proof. vm_compute. auto. Qed.
