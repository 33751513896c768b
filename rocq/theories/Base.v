(** Shared definitions: byte strings, results, decidable equality and small
    association-list maps.  Nothing here models code of /repo by itself. *)
From Coq Require Export List Arith NArith ZArith Lia Bool Permutation Sorted.
From Coq Require Export ZifyBool ZifyNat ZifyN.
From Coq Require String Ascii.
Export ListNotations.
Export String.StringSyntax.

(** Go byte strings (strings and byte slices alike). *)
Notation bytes := (list N).

(** String literals, for examples only. *)
Fixpoint bs (s : String.string) : bytes :=
  match s with
  | String.EmptyString => []
  | String.String c s' => Ascii.N_of_ascii c :: bs s'
  end.

#[global] Arguments bs s%string_scope.

(** Boolean equality with its specification. *)
Class EqB (A : Type) := {
  eqb : A -> A -> bool;
  eqb_eq : forall x y, eqb x y = true <-> x = y
}.

#[global] Arguments eqb {A EqB} x y : simpl never, rename.

#[export] Instance EqB_N : EqB N := { eqb := N.eqb; eqb_eq := N.eqb_eq }.
#[export] Instance EqB_Z : EqB Z := { eqb := Z.eqb; eqb_eq := Z.eqb_eq }.
#[export] Instance EqB_nat : EqB nat := { eqb := Nat.eqb; eqb_eq := Nat.eqb_eq }.
#[export] Program Instance EqB_bool : EqB bool := { eqb := Bool.eqb }.
Next Obligation. apply Bool.eqb_true_iff. Qed.

Fixpoint list_eqb {A} `{EqB A} (l m : list A) : bool :=
  match l, m with
  | [], [] => true
  | x :: l', y :: m' => eqb x y && list_eqb l' m'
  | _, _ => false
  end.

Lemma list_eqb_eq {A} `{EqB A} (l m : list A) : list_eqb l m = true <-> l = m.
Proof.
  revert m; induction l as [|x l IH]; destruct m as [|y m]; simpl;
    try (split; congruence).
  rewrite andb_true_iff, eqb_eq, IH. split; [intros []; congruence|].
  intros E; injection E; auto.
Qed.

#[export] Instance EqB_list {A} `{EqB A} : EqB (list A) :=
  { eqb := list_eqb; eqb_eq := list_eqb_eq }.

Definition pair_eqb {A B} `{EqB A} `{EqB B} (p q : A * B) : bool :=
  eqb (fst p) (fst q) && eqb (snd p) (snd q).
Lemma pair_eqb_eq {A B} `{EqB A} `{EqB B} (p q : A * B) :
  pair_eqb p q = true <-> p = q.
Proof.
  destruct p as [a b], q as [c d]; unfold pair_eqb; simpl.
  rewrite andb_true_iff, !eqb_eq. split; [intros []; congruence|].
  intros E; injection E; auto.
Qed.
#[export] Instance EqB_pair {A B} `{EqB A} `{EqB B} : EqB (A * B) :=
  { eqb := pair_eqb; eqb_eq := pair_eqb_eq }.

Definition option_eqb {A} `{EqB A} (x y : option A) : bool :=
  match x, y with
  | Some a, Some b => eqb a b
  | None, None => true
  | _, _ => false
  end.
Lemma option_eqb_eq {A} `{EqB A} (x y : option A) : option_eqb x y = true <-> x = y.
Proof.
  destruct x, y; simpl; try (split; congruence).
  rewrite eqb_eq. split; congruence.
Qed.
#[export] Instance EqB_option {A} `{EqB A} : EqB (option A) :=
  { eqb := option_eqb; eqb_eq := option_eqb_eq }.

Lemma eqb_refl {A} `{EqB A} (x : A) : eqb x x = true.
Proof. apply eqb_eq; reflexivity. Qed.

Lemma eqb_neq {A} `{EqB A} (x y : A) : eqb x y = false <-> x <> y.
Proof.
  destruct (eqb x y) eqn:E; split; intros Hxy; try congruence.
  - exfalso. apply Hxy. apply eqb_eq. exact E.
  - intros ->. rewrite (proj2 (eqb_eq y y) eq_refl) in E. discriminate.
Qed.

Lemma eqb_true {A} `{EqB A} (x y : A) : eqb x y = true -> x = y.
Proof. apply eqb_eq. Qed.
Lemma eqb_false {A} `{EqB A} (x y : A) : eqb x y = false -> x <> y.
Proof. apply eqb_neq. Qed.

Lemma eqb_sym {A} `{EqB A} (x y : A) : eqb x y = eqb y x.
Proof.
  destruct (eqb x y) eqn:E1, (eqb y x) eqn:E2; auto.
  - apply eqb_true in E1. apply eqb_false in E2. congruence.
  - apply eqb_true in E2. apply eqb_false in E1. congruence.
Qed.

Lemma eqb_spec {A} `{EqB A} (x y : A) : reflect (x = y) (eqb x y).
Proof. apply iff_reflect. symmetry. apply eqb_eq. Qed.

Lemma EqB_dec {A} `{EqB A} (x y : A) : {x = y} + {x <> y}.
Proof. destruct (eqb_spec x y); auto. Qed.

(** Membership test. *)
Definition mem {A} `{EqB A} (x : A) (l : list A) : bool := existsb (eqb x) l.
Lemma mem_In {A} `{EqB A} (x : A) l : mem x l = true <-> In x l.
Proof.
  unfold mem. rewrite existsb_exists. split.
  - intros [y [Hy E]]. apply eqb_true in E. subst; auto.
  - intros Hx. exists x. split; auto. apply eqb_refl.
Qed.
Lemma mem_false {A} `{EqB A} (x : A) l : mem x l = false <-> ~ In x l.
Proof.
  destruct (mem x l) eqn:E; split; intros Hx; try congruence.
  - exfalso. apply Hx. apply mem_In. exact E.
  - intros Hi. apply mem_In in Hi. congruence.
Qed.

(** * Association-list maps (models of Go maps and of directories)

    [mset] keeps the position of an existing key and appends a new key at the
    end; key lists stay duplicate free. *)
Section AMap.
  Context {K V : Type} `{EqB K}.

  Fixpoint mget (m : list (K * V)) (k : K) : option V :=
    match m with
    | [] => None
    | (k', v) :: m' => if eqb k k' then Some v else mget m' k
    end.

  Fixpoint mset (m : list (K * V)) (k : K) (v : V) : list (K * V) :=
    match m with
    | [] => [(k, v)]
    | (k', v') :: m' => if eqb k k' then (k, v) :: m' else (k', v') :: mset m' k v
    end.

  Definition mdel (m : list (K * V)) (k : K) : list (K * V) :=
    filter (fun kv => negb (eqb k (fst kv))) m.

  Definition mkeys (m : list (K * V)) : list K := map fst m.

  Definition mhas (m : list (K * V)) (k : K) : bool :=
    match mget m k with Some _ => true | None => false end.

  Lemma mget_mset_eq m k v : mget (mset m k v) k = Some v.
  Proof.
    induction m as [|[k' v'] m IH]; simpl; [now rewrite eqb_refl|].
    destruct (eqb k k') eqn:E; simpl; [now rewrite eqb_refl|now rewrite E].
  Qed.

  Lemma mget_mset_ne m k v k0 : k0 <> k -> mget (mset m k v) k0 = mget m k0.
  Proof.
    intros Hn. induction m as [|[k' v'] m IH]; simpl.
    - apply eqb_neq in Hn. now rewrite Hn.
    - destruct (eqb_spec k k') as [->|Hkk]; simpl.
      + apply eqb_neq in Hn. now rewrite Hn.
      + destruct (eqb k0 k'); auto.
  Qed.

  Lemma mget_mset m k v k0 :
    mget (mset m k v) k0 = if eqb k0 k then Some v else mget m k0.
  Proof.
    destruct (eqb_spec k0 k) as [->|Hn]; [apply mget_mset_eq|now apply mget_mset_ne].
  Qed.

  Lemma mget_mdel m k k0 :
    mget (mdel m k) k0 = if eqb k0 k then None else mget m k0.
  Proof.
    unfold mdel. induction m as [|[k' v'] m IH]; simpl.
    - destruct (eqb k0 k); auto.
    - destruct (eqb_spec k k') as [->|Hkk]; simpl.
      + rewrite IH. destruct (eqb k0 k'); auto.
      + rewrite IH. destruct (eqb_spec k0 k') as [->|Hk0]; auto.
        destruct (eqb_spec k' k); congruence.
  Qed.

  Lemma mget_In m k v : mget m k = Some v -> In (k, v) m.
  Proof.
    induction m as [|[k' v'] m IH]; simpl; [congruence|].
    destruct (eqb_spec k k') as [->|]; [intros [= ->]; auto|auto].
  Qed.

  Lemma mget_None m k : mget m k = None <-> ~ In k (mkeys m).
  Proof.
    unfold mkeys. induction m as [|[k' v'] m IH]; simpl; [tauto|].
    destruct (eqb_spec k k') as [->|Hk].
    - split; [congruence|]. intros Hn; exfalso; auto.
    - rewrite IH. split; [intros Hn [E|]; [congruence|auto]|tauto].
  Qed.

  Lemma mget_Some_keys m k v : mget m k = Some v -> In k (mkeys m).
  Proof. intros E%mget_In. apply in_map_iff. exists (k, v); auto. Qed.

  Lemma In_mget m k v : NoDup (mkeys m) -> In (k, v) m -> mget m k = Some v.
  Proof.
    unfold mkeys. induction m as [|[k' v'] m IH]; simpl; [tauto|].
    intros ND. inversion ND as [|? ? Hni ND']; subst. intros [E|Hin].
    - injection E as -> ->. now rewrite eqb_refl.
    - destruct (eqb_spec k k') as [->|]; [|auto].
      exfalso. apply Hni. apply in_map_iff. exists (k', v); auto.
  Qed.

  Lemma mkeys_mset m k v :
    mkeys (mset m k v) = if mhas m k then mkeys m else mkeys m ++ [k].
  Proof.
    unfold mkeys, mhas. induction m as [|[k' v'] m IH]; simpl; auto.
    destruct (eqb_spec k k') as [->|Hk]; simpl; auto.
    rewrite IH. destruct (mget m k); auto.
  Qed.

  Lemma NoDup_mset m k v : NoDup (mkeys m) -> NoDup (mkeys (mset m k v)).
  Proof.
    intros ND. rewrite mkeys_mset. unfold mhas.
    destruct (mget m k) eqn:E; auto.
    apply mget_None in E.
    apply (Permutation_NoDup (l := k :: mkeys m)).
    - apply Permutation_cons_append.
    - constructor; auto.
  Qed.

  Lemma In_mkeys_mdel m k x : In x (mkeys (mdel m k)) <-> In x (mkeys m) /\ x <> k.
  Proof.
    unfold mkeys, mdel. rewrite !in_map_iff. split.
    - intros [[k' v'] [E Hf]]. simpl in E; subst. apply filter_In in Hf.
      destruct Hf as [Hin Hb]. simpl in Hb. apply negb_true_iff in Hb.
      apply eqb_false in Hb. split; [exists (x, v'); auto|congruence].
    - intros [[[k' v'] [E Hin]] Hne]. simpl in E; subst. exists (x, v').
      split; auto. apply filter_In. split; auto. simpl.
      apply negb_true_iff. apply eqb_neq. congruence.
  Qed.

  Lemma NoDup_mdel m k : NoDup (mkeys m) -> NoDup (mkeys (mdel m k)).
  Proof.
    unfold mkeys, mdel. induction m as [|[k' v'] m IH]; simpl; auto.
    intros ND; inversion ND as [|? ? Hni ND']; subst.
    destruct (negb (eqb k k')); simpl; auto. constructor; auto.
    intros Hin. apply Hni. apply in_map_iff in Hin.
    destruct Hin as [[k2 v2] [E Hf]]. simpl in E. subst.
    apply filter_In in Hf. apply in_map_iff. exists (k', v2). tauto.
  Qed.
End AMap.

(** Outcome of a Go call: a value, an error return, or a run-time panic. *)
Inductive res (E A : Type) : Type :=
| Ok (a : A)
| Err (e : E)
| Panic.
Arguments Ok {E A} a.
Arguments Err {E A} e.
Arguments Panic {E A}.

(** Lists. *)
Definition upd {A} (l : list A) (i : nat) (x : A) : list A :=
  firstn i l ++ match skipn i l with [] => [] | _ :: r => x :: r end.

Lemma upd_length {A} (l : list A) i x : length (upd l i x) = length l.
Proof.
  unfold upd. rewrite app_length, firstn_length.
  pose proof (skipn_length i l) as E.
  destruct (skipn i l); simpl in *; lia.
Qed.

Lemma firstn_upd {A} (l : list A) i x :
  i < length l -> firstn (S i) (upd l i x) = firstn i l ++ [x].
Proof.
  intros Hi. unfold upd. rewrite firstn_app, firstn_length.
  replace (Nat.min i (length l)) with i by lia.
  rewrite firstn_firstn. replace (Nat.min (S i) i) with i by lia.
  pose proof (skipn_length i l) as E.
  replace (S i - i) with 1 by lia.
  destruct (skipn i l) as [|y r]; simpl in *; [lia|reflexivity].
Qed.

Lemma firstn_upd_le {A} (l : list A) i j x :
  j <= i -> firstn j (upd l i x) = firstn j l.
Proof.
  intros Hi. unfold upd. rewrite firstn_app, firstn_length.
  rewrite firstn_firstn. replace (Nat.min j i) with j by lia.
  destruct (le_lt_dec (length l) i) as [Hl|Hl].
  - rewrite skipn_all2 by lia. now rewrite firstn_nil, app_nil_r.
  - replace (j - Nat.min i (length l)) with 0 by lia. simpl. apply app_nil_r.
Qed.

Lemma firstn_S_nth {A} (l : list A) i d :
  i < length l -> firstn (S i) l = firstn i l ++ [nth i l d].
Proof.
  revert i; induction l as [|a l IH]; simpl; intros i Hi; [lia|].
  destruct i; simpl; auto. f_equal. apply IH. lia.
Qed.
