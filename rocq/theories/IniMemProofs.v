(** In-memory behaviour of the ini database. *)
From Verif Require Import Base IniModel.

(** * Specification in terms of the history of calls, newest first, and of the
    contents [t0] the database was opened with *)

(** A record of an opened file. *)
Definition stored (t0 : tables) (t k : bytes) : option bytes :=
  match mget t0 t with Some s => mget s k | None => None end.

(** Contents as a Go map of Go maps: keys are distinct. *)
Definition wf_tables (t0 : tables) : Prop :=
  NoDup (mkeys t0) /\ forall t s, mget t0 t = Some s -> NoDup (mkeys s).

(** A database just opened with contents [t0] (inidb.go:50-85). *)
Definition opened (t0 : tables) (created : bool) : inidb :=
  {| db_tables := t0; db_dirty := false; db_created := created |}.

(** Does the table exist after the history? *)
Fixpoint table_exists (t0 : tables) (h : list ini_op) (t : bytes) : bool :=
  match h with
  | [] => mem t (mkeys t0)
  | INewTable t' :: h' => eqb t t' || table_exists t0 h' t
  | IDelTable t' :: h' => negb (eqb t t') && table_exists t0 h' t
  | _ :: h' => table_exists t0 h' t
  end.

(** The value last stored, and not removed since. *)
Fixpoint last_value (t0 : tables) (h : list ini_op) (t k : bytes) : option bytes :=
  match h with
  | [] => stored t0 t k
  | ISet t' k' v :: h' =>
      if eqb t t' && eqb k k' && table_exists t0 h' t then Some v else last_value t0 h' t k
  | IDel t' k' :: h' =>
      if eqb t t' && eqb k k' then None else last_value t0 h' t k
  | IDelTable t' :: h' => if eqb t t' then None else last_value t0 h' t k
  | _ :: h' => last_value t0 h' t k
  end.

Definition err_if_missing (b : bool) : option ini_err :=
  if b then None else Some ErrNotFound.

(** What the next call must return after history [h]. *)
Definition result_ok (t0 : tables) (h : list ini_op) (o : ini_op) (r : ini_out) : Prop :=
  match o, r with
  | ISet t _ _, OErr e => e = err_if_missing (table_exists t0 h t)
  | IDel t _, OErr e => e = err_if_missing (table_exists t0 h t)
  | IDelTable t, OErr e => e = err_if_missing (table_exists t0 h t)
  | INewTable _, OErr e => e = None
  | IGet t k, OGet x =>
      x = match last_value t0 h t k with Some v => Ok v | None => Err ErrNotFound end
  | IRecords t, ORecords s =>
      NoDup (map fst s) /\ forall k v, In (k, v) s <-> last_value t0 h t k = Some v
  | ITables, OTables l => NoDup l /\ forall t, In t l <-> table_exists t0 h t = true
  | _, _ => False
  end.

(** * Proof *)

Definition represents (t0 : tables) (h : list ini_op) (d : inidb) : Prop :=
  NoDup (mkeys (db_tables d)) /\
  forall t, match mget (db_tables d) t with
            | Some s => table_exists t0 h t = true /\ NoDup (mkeys s) /\
                        forall k, mget s k = last_value t0 h t k
            | None => table_exists t0 h t = false /\ forall k, last_value t0 h t k = None
            end.

Lemma represents_opened t0 c : wf_tables t0 -> represents t0 [] (opened t0 c).
Proof.
  intros [ND W]. split; auto.
  intros t. cbn [opened db_tables table_exists last_value]. unfold stored.
  destruct (mget t0 t) as [s|] eqn:E.
  - split; [apply mem_In; eapply mget_Some_keys; eauto|]. split; eauto.
  - split; auto. destruct (mem t (mkeys t0)) eqn:Em; auto.
    apply mem_In in Em. apply mget_None in E. tauto.
Qed.

Lemma represents_step t0 h d o :
  represents t0 h d -> represents t0 (o :: h) (fst (ini_step d o)) /\ result_ok t0 h o (snd (ini_step d o)).
Proof.
  intros [ND R]. destruct o as [t k v|t k|t|t|t k|t|]; simpl.
  - (* Set *)
    unfold ini_set. pose proof (R t) as Rt.
    destruct (mget (db_tables d) t) as [s|] eqn:Et; simpl.
    + destruct Rt as (Hex & Hnd & Hv). split; [|now rewrite Hex].
      split; simpl; [now apply NoDup_mset|].
      intros t1. rewrite mget_mset. destruct (eqb_spec t1 t) as [->|Hne].
      * simpl. split; auto. split; [now apply NoDup_mset|].
        intros k0. rewrite mget_mset, Hex, andb_true_r. destruct (eqb k0 k); auto.
      * simpl. apply (R t1).
    + destruct Rt as (Hex & Hv). split; [|now rewrite Hex].
      split; auto. intros t1. simpl.
      pose proof (R t1) as R0. destruct (mget (db_tables d) t1) as [s0|] eqn:E0.
      * destruct R0 as (A & B & C). split; auto. split; auto. intros k0. rewrite C.
        destruct (eqb_spec t1 t) as [->|]; simpl; auto. congruence.
      * destruct R0 as (A & B). split; auto. intros k0.
        rewrite A, andb_false_r. auto.
  - (* Del *)
    unfold ini_del. pose proof (R t) as Rt.
    destruct (mget (db_tables d) t) as [s|] eqn:Et; simpl.
    + destruct Rt as (Hex & Hnd & Hv). split; [|now rewrite Hex].
      split; simpl; [now apply NoDup_mset|].
      intros t1. rewrite mget_mset. destruct (eqb_spec t1 t) as [->|Hne].
      * simpl. split; auto. split; [now apply NoDup_mdel|].
        intros k0. rewrite mget_mdel. destruct (eqb k0 k); auto.
      * simpl. apply (R t1).
    + destruct Rt as (Hex & Hv). split; [|now rewrite Hex].
      split; auto. intros t1. simpl.
      pose proof (R t1) as R0. destruct (mget (db_tables d) t1) as [s0|] eqn:E0.
      * destruct R0 as (A & B & C). split; auto. split; auto. intros k0. rewrite C.
        destruct (eqb_spec t1 t) as [->|]; simpl; auto. congruence.
      * destruct R0 as (A & B). split; auto. intros k0.
        destruct (eqb t1 t && eqb k0 k); auto.
  - (* NewTable *)
    split; auto. unfold ini_new_table, represents; simpl. unfold ensure.
    pose proof (R t) as Rt. destruct (mget (db_tables d) t) as [s|] eqn:Et.
    + split; auto. intros t1. pose proof (R t1) as R0.
      destruct (mget (db_tables d) t1) as [s0|] eqn:E0.
      * destruct R0 as (A & B & C). rewrite A, orb_true_r. auto.
      * destruct R0 as (A & B). rewrite A, orb_false_r.
        destruct (eqb_spec t1 t) as [->|]; auto. congruence.
    + destruct Rt as (Hex & Hv). split; [now apply NoDup_mset|].
      intros t1. rewrite mget_mset. destruct (eqb_spec t1 t) as [->|Hne]; simpl.
      * split; auto. split; [constructor|]. intros k0. now rewrite Hv.
      * apply (R t1).
  - (* DelTable *)
    unfold ini_del_table. pose proof (R t) as Rt.
    destruct (mget (db_tables d) t) as [s|] eqn:Et; simpl.
    + destruct Rt as (Hex & Hnd & Hv). split; [|now rewrite Hex].
      split; simpl; [now apply NoDup_mdel|].
      intros t1. rewrite mget_mdel. destruct (eqb_spec t1 t) as [->|Hne]; simpl.
      * auto.
      * apply (R t1).
    + destruct Rt as (Hex & Hv). split; [|now rewrite Hex].
      split; auto. intros t1. simpl.
      pose proof (R t1) as R0. destruct (mget (db_tables d) t1) as [s0|] eqn:E0.
      * destruct R0 as (A & B & C).
        destruct (eqb_spec t1 t) as [->|]; simpl; auto. congruence.
      * destruct R0 as (A & B). rewrite A, andb_false_r. split; auto.
        intros k0. destruct (eqb t1 t); auto.
  - (* Get *)
    split; [split; auto|]. unfold ini_get. pose proof (R t) as Rt.
    destruct (mget (db_tables d) t) as [s|] eqn:Et.
    + destruct Rt as (A & B & C). rewrite C. destruct (last_value t0 h t k); auto.
    + destruct Rt as (A & B). now rewrite B.
  - (* Records *)
    split; [split; auto|]. unfold ini_records. pose proof (R t) as Rt.
    destruct (mget (db_tables d) t) as [s|] eqn:Et.
    + destruct Rt as (A & B & C). split; auto. intros k v. rewrite <- C. split.
      * apply In_mget; auto.
      * apply mget_In.
    + destruct Rt as (A & B). split; [constructor|]. intros k v. rewrite B. simpl. split; [tauto|discriminate].
  - (* Tables *)
    split; [split; auto|]. unfold ini_tables. split; auto. intros t.
    pose proof (R t) as Rt. destruct (mget (db_tables d) t) as [s|] eqn:Et.
    + destruct Rt as (A & _). split; auto. intros _. eapply mget_Some_keys; eauto.
    + destruct Rt as (A & _). apply mget_None in Et. rewrite A.
      split; [tauto|discriminate].
Qed.

Lemma represents_after t0 c h : wf_tables t0 -> represents t0 h (ini_after (opened t0 c) h).
Proof.
  intros W. induction h as [|o h IH]; simpl; [now apply represents_opened|].
  now apply represents_step.
Qed.

Lemma ini_history t0 c h o : wf_tables t0 ->
  result_ok t0 h o (snd (ini_step (ini_after (opened t0 c) h) o)).
Proof. intros W. apply represents_step. now apply represents_after. Qed.

(** Failing calls change nothing at all, including the dirty flag. *)
Lemma ini_failed_unchanged d o e :
  snd (ini_step d o) = OErr (Some e) -> fst (ini_step d o) = d.
Proof.
  destruct o as [t k v|t k|t|t|t k|t|]; simpl; try discriminate.
  - unfold ini_set. destruct (mget (db_tables d) t); simpl; [discriminate|auto].
  - unfold ini_del. destruct (mget (db_tables d) t); simpl; [discriminate|auto].
  - unfold ini_del_table. destruct (mget (db_tables d) t); simpl; [discriminate|auto].
Qed.

(** Every successful call that can change a record marks the database dirty, so
    the next Save writes it. *)
Lemma ini_changed_dirty d o t k :
  ini_get (fst (ini_step d o)) t k <> ini_get d t k -> db_dirty (fst (ini_step d o)) = true.
Proof.
  destruct o as [t0 k0 v|t0 k0|t0|t0|t0 k0|t0|]; simpl; try congruence.
  - unfold ini_set. destruct (mget (db_tables d) t0); simpl; congruence.
  - unfold ini_del. destruct (mget (db_tables d) t0); simpl; congruence.
  - unfold ini_new_table, ini_get; simpl. unfold ensure.
    destruct (mget (db_tables d) t0) eqn:E; [congruence|].
    rewrite mget_mset. destruct (eqb_spec t t0) as [->|]; [|congruence].
    rewrite E. simpl. congruence.
  - unfold ini_del_table. destruct (mget (db_tables d) t0); simpl; congruence.
Qed.
