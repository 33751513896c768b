(** Proofs about the settings of the client. *)
From Verif Require Import Base IniModel IniMemProofs IniFileProofs WelcomeModel ConfModel.
From Coq Require Import Lia.
Local Open Scope N_scope.

(** * What a configuration file says *)

(** What a line is. *)
Inductive kind := Comment | Assign (k v : bytes) | Header (n : bytes) | Broken.
Definition kind_of (raw : bytes) : kind :=
  match trim raw with
  | [] => Comment
  | c :: r =>
      if (c =? 59) || (c =? 35) then Comment
      else match match_assign (c :: r) with
           | Some (k, v) => Assign (trim k) (trim v)
           | None => match match_section (c :: r) with Some n => Header (trim n) | None => Broken end
           end
  end.

(** The assignments up to the first broken line, with their sections. *)
Fixpoint assigned (cur : bytes) (ls : list bytes) : list (bytes * bytes * bytes) :=
  match ls with
  | [] => []
  | l :: r => match kind_of l with
              | Comment => assigned cur r
              | Assign k v => (cur, k, v) :: assigned cur r
              | Header n => assigned n r
              | Broken => []
              end
  end.

(** The last value of a key. *)
Fixpoint last_of (sec key : bytes) (l : list (bytes * bytes * bytes)) : option bytes :=
  match l with
  | [] => None
  | (s, k, v) :: r =>
      match last_of sec key r with
      | Some x => Some x
      | None => if eqb s sec && eqb k key then Some v else None
      end
  end.

Definition sound (ls : list bytes) : Prop := Forall (fun l => kind_of l <> Broken) ls.
Definition value (content sec key : bytes) : option bytes := last_of sec key (assigned [] (lines content)).

Lemma parse_kind cur f l : parse_line (cur, f) l =
  match kind_of l with
  | Comment => Some (cur, f)
  | Assign k v => match mget (ensure f cur) cur with
                  | Some s => Some (cur, mset (ensure f cur) cur (mset s k v))
                  | None => None
                  end
  | Header n => Some (n, ensure f n)
  | Broken => None
  end.
Proof.
  unfold parse_line, kind_of. destruct (trim l) as [|c r]; [reflexivity|]. unfold SEMI, HASH.
  destruct ((c =? 59) || (c =? 35)); [reflexivity|]. destruct (match_assign (c :: r)) as [[k v]|]; [reflexivity|].
  destruct (match_section (c :: r)); reflexivity.
Qed.

Lemma mget_ensure f n : exists s, mget (ensure f n) n = Some s.
Proof. unfold ensure. destruct (mget f n) eqn:E; [eauto|]. exists []. now rewrite mget_mset, eqb_refl. Qed.
Lemma get_ensure f n sec key : conf_get (ensure f n) sec key = conf_get f sec key.
Proof.
  unfold ensure, conf_get. destruct (mget f n) eqn:E; [reflexivity|]. rewrite mget_mset.
  destruct (eqb_spec sec n) as [->|]; [now rewrite E|reflexivity].
Qed.

Lemma load_lines_value ls : forall cur f sec key,
  conf_get (fst (load_lines (cur, f) ls)) sec key =
  match last_of sec key (assigned cur ls) with Some v => Some v | None => conf_get f sec key end.
Proof.
  induction ls as [|l ls IH]; intros cur f sec key; [reflexivity|].
  cbn [load_lines assigned]. rewrite parse_kind. destruct (kind_of l) as [|k v|n|]; [apply IH| | |reflexivity].
  - destruct (mget_ensure f cur) as [s E]. rewrite E, IH. cbn [last_of].
    destruct (last_of sec key (assigned cur ls)); [reflexivity|].
    unfold conf_get at 1. rewrite mget_mset.
    destruct (eqb_spec sec cur) as [->|N].
    + rewrite eqb_refl. cbn [andb]. rewrite mget_mset. destruct (eqb_spec k key) as [->|Nk].
      * now rewrite eqb_refl.
      * destruct (eqb_spec key k); [congruence|]. rewrite <- (get_ensure f cur cur key). unfold conf_get. now rewrite E.
    + destruct (eqb_spec cur sec); [congruence|]. cbn [andb]. apply (get_ensure f cur sec key).
  - rewrite IH. now rewrite get_ensure.
Qed.

Lemma load_value c sec key : conf_get (fst (load c)) sec key = value c sec key.
Proof. unfold load, value. rewrite load_lines_value. now destruct (last_of _ _ _). Qed.

Lemma load_lines_ok ls : forall cur f, snd (load_lines (cur, f) ls) = true <-> sound ls.
Proof.
  unfold sound. induction ls as [|l ls IH]; intros cur f; cbn [load_lines].
  - split; [constructor|reflexivity].
  - rewrite parse_kind. destruct (kind_of l) as [|k v|n|] eqn:E.
    + rewrite IH. split; [constructor; [congruence|auto]|now inversion 1].
    + destruct (mget_ensure f cur) as [s Es]. rewrite Es, IH. split; [constructor; [congruence|auto]|now inversion 1].
    + rewrite IH. split; [constructor; [congruence|auto]|now inversion 1].
    + cbn. split; [discriminate|]. inversion 1. congruence.
Qed.
Lemma load_ok c : snd (load c) = true <-> sound (lines c).
Proof. apply load_lines_ok. Qed.

(** Nothing after a broken line counts. *)
Lemma assigned_app a b cur : ~ sound a -> assigned cur (a ++ b) = assigned cur a.
Proof.
  revert cur. induction a as [|l a IH]; intros cur N; [destruct N; constructor|].
  cbn [app assigned]. destruct (kind_of l) eqn:E; try reflexivity; rewrite IH; auto; intros S; apply N; constructor; auto; congruence.
Qed.
Lemma assigned_broken a l b cur : kind_of l = Broken -> assigned cur (a ++ l :: b) = assigned cur a.
Proof.
  intros K. revert cur. induction a as [|x a IH]; intros cur; cbn [app assigned]; [now rewrite K|].
  destruct (kind_of x); try rewrite IH; reflexivity.
Qed.

(** * Lists separated by a byte *)
Fixpoint glue (c : N) (l : list bytes) : bytes :=
  match l with [] => [] | [x] => x | x :: r => x ++ c :: glue c r end.

Lemma split_ne c s : split c s <> [].
Proof. destruct s as [|x r]; cbn; [discriminate|]. destruct (x =? c); [discriminate|]. destruct (split c r); discriminate. Qed.
Lemma glue_split c s : glue c (split c s) = s.
Proof.
  induction s as [|x r IH]; [reflexivity|]. cbn [split]. destruct (N.eqb_spec x c) as [->|].
  - pose proof (split_ne c r). destruct (split c r) as [|y l]; [congruence|]. cbn [glue app]. cbn [glue] in IH. now rewrite IH.
  - pose proof (split_ne c r). destruct (split c r) as [|y l]; [congruence|]. destruct l as [|z l]; cbn [glue] in *; cbn [app]; now rewrite IH.
Qed.
Lemma split_plain c s : ~ In c s -> split c s = [s].
Proof.
  induction s as [|x r IH]; [reflexivity|]. intros N. cbn [split]. destruct (N.eqb_spec x c) as [->|]; [destruct N; now left|].
  rewrite IH; [reflexivity|]. intros I. apply N. now right.
Qed.
Lemma split_app c s r : ~ In c s -> split c (s ++ c :: r) = s :: split c r.
Proof.
  induction s as [|x s IH]; intros N; cbn [app split]; [now rewrite N.eqb_refl|].
  destruct (N.eqb_spec x c) as [->|]; [destruct N; now left|]. rewrite IH; [reflexivity|]. intros I. apply N. now right.
Qed.
Lemma split_glue c l : l <> [] -> Forall (fun s => ~ In c s) l -> split c (glue c l) = l.
Proof.
  intros N H. induction H as [|x l Hx H IH]; [congruence|]. destruct l as [|y l].
  - now apply split_plain.
  - cbn [glue]. rewrite split_app by auto. f_equal. apply IH. discriminate.
Qed.
Lemma split_parts c s : Forall (fun x => ~ In c x) (split c s).
Proof.
  induction s as [|x r IH]; cbn [split]; [repeat constructor; auto|]. destruct (N.eqb_spec x c) as [->|N].
  - constructor; auto.
  - destruct (split c r) as [|l ls]; [repeat constructor; intros [E|[]]; congruence|]. inversion IH; subst. constructor; auto. intros [E|I]; [congruence|auto].
Qed.
