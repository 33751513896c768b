(** C32, C37, C42, C48: completion, group names, version strings, history. *)
From Verif Require Import Base Utf8Model UiModel.
Local Open Scope N_scope.

(** * C32 *)

(** A candidate starts with [s]. *)
Definition starts (s v : bytes) : Prop := exists t, v = s ++ t.

Lemma has_prefix_spec s : forall v, has_prefix v s = true <-> starts s v.
Proof.
  induction s as [|x s IH]; intros v; cbn.
  - split; auto. intros _. exists v. auto.
  - destruct v as [|y v].
    + split; [discriminate|]. intros (t & H). discriminate.
    + rewrite andb_true_iff, IH. split.
      * intros [E (t & ->)]. apply eqb_true in E. subst. exists t. auto.
      * intros (t & H). injection H as -> ->. split; [apply eqb_refl|exists t; auto].
Qed.

(** The index at which completion of [s] starts. *)
Definition begins (all : list bytes) (s : bytes) (i : nat) : Prop :=
  (s = [] /\ i = 0%nat /\ all <> []) \/
  (s <> [] /\ (exists v, nth_error all i = Some v /\ starts s v) /\
   forall j v, (j < i)%nat -> nth_error all j = Some v -> ~ starts s v).

Lemma first_match_spec s l : forall k,
  match first_match k l s with
  | Some (i, v) => exists d, i = (k + d)%nat /\ nth_error l d = Some v /\ starts s v /\
                     forall j w, (j < d)%nat -> nth_error l j = Some w -> ~ starts s w
  | None => forall v, In v l -> ~ starts s v
  end.
Proof.
  induction l as [|v r IH]; intros k; cbn; [auto|].
  destruct (has_prefix v s) eqn:P.
  - exists 0%nat. apply has_prefix_spec in P. split; [lia|]. split; auto. split; auto. intros j w H. lia.
  - assert (P' : ~ starts s v) by (intros H; apply has_prefix_spec in H; congruence).
    specialize (IH (S k)). destruct (first_match (S k) r s) as [[i w]|].
    + destruct IH as (d & -> & N & S' & M). exists (S d). split; [lia|]. split; auto. split; auto.
      intros [|j] u H; cbn; [intros [= <-]; auto|]. apply M. lia.
    + intros w [<-|H]; auto.
Qed.

Lemma tabs_from all n : forall i s, ~ In [] all -> nth_error all i = Some s ->
  tabs n (mkComp all i (Z.of_nat i)) s = Ok (map (fun k => nth ((i + 1 + k) mod length all) all []) (seq 0 n)).
Proof.
  induction n as [|n IH]; intros i s NE H; [reflexivity|]. cbn [tabs].
  assert (Hi : (i < length all)%nat) by (apply nth_error_Some; congruence).
  assert (S : exists i' s', next (mkComp all i (Z.of_nat i)) s = Ok (mkComp all i' (Z.of_nat i'), s') /\
     nth_error all i' = Some s' /\ i' = ((i + 1) mod length all)%nat).
  { unfold next. cbn [c_all c_at c_prev]. destruct all as [|first r] eqn:A; [cbn in Hi; lia|]. rewrite <- A in *.
    destruct s as [|x s]; [exfalso; apply NE; eapply nth_error_In; exact H|]. rewrite Z.eqb_refl, H, eqb_refl.
    destruct (Nat.ltb_spec (i + 1) (length all)) as [L|L].
    - destruct (nth_error all (i + 1)) as [w|] eqn:W; [|apply nth_error_None in W; lia].
      exists (i + 1)%nat, w. split; auto. split; auto. now rewrite Nat.mod_small.
    - exists 0%nat, first. split; auto. rewrite A. split; auto. rewrite <- A.
      replace (i + 1)%nat with (length all) by lia. now rewrite Nat.mod_same by lia. }
  destruct S as (i' & s' & -> & N & ->). rewrite (IH _ s') by auto. cbn [seq map]. do 2 f_equal.
  - rewrite Nat.add_0_r. symmetry. now apply nth_error_nth.
  - rewrite <- seq_shift, map_map. apply map_ext. intros k. f_equal.
    replace (i + 1 + S k)%nat with ((i + 1) + (1 + k))%nat by lia.
    replace ((i + 1) mod length all + 1 + k)%nat with ((i + 1) mod length all + (1 + k))%nat by lia.
    now rewrite Nat.add_mod_idemp_l by lia.
Qed.

Theorem C32_cycle : forall all s i n, ~ In [] all -> begins all s i ->
  tabs n (new_comp all) s = Ok (map (fun k => nth ((i + k) mod length all) all []) (seq 0 n)).
Proof.
  intros all s i [|n] NE B; [reflexivity|]. cbn [tabs].
  assert (S : exists v, next (new_comp all) s = Ok (mkComp all i (Z.of_nat i), v) /\ nth_error all i = Some v).
  { unfold next, new_comp. cbn [c_all c_at c_prev]. destruct B as [(-> & -> & H)|(Hs & (v & N & P) & M)].
    - destruct all as [|f r]; [congruence|]. exists f. auto.
    - exists v. destruct all as [|f r] eqn:A; [destruct i; discriminate|]. rewrite <- A in *.
      destruct s as [|x s]; [congruence|]. change (Z.of_nat 0 =? -1)%Z with false. cbv iota.
      pose proof (first_match_spec (x :: s) all 0) as F. destruct (first_match 0 all (x :: s)) as [[j w]|].
      + destruct F as (d & -> & D1 & D2 & D3). cbn [Nat.add]. assert (d = i) as ->.
        { destruct (Nat.lt_trichotomy d i) as [L|[L|L]]; auto; exfalso; [eapply M; eauto|eapply D3; eauto]. }
        rewrite N in D1. injection D1 as ->. auto.
      + exfalso. eapply F; [|exact P]. eapply nth_error_In; exact N. }
  destruct S as (v & -> & N). rewrite (tabs_from all n i v) by auto. cbn [seq map]. do 2 f_equal.
  - rewrite Nat.add_0_r. rewrite Nat.mod_small by (apply nth_error_Some; congruence). symmetry. now apply nth_error_nth.
  - rewrite <- seq_shift, map_map. apply map_ext. intros k. do 2 f_equal. lia.
Qed.
Print Assumptions C32_cycle.

(** Hence as many tabs as there are candidates show every one of them once. *)
Theorem C32_all : forall all s i, ~ In [] all -> begins all s i ->
  exists shown, tabs (length all) (new_comp all) s = Ok shown /\ Permutation all shown /\
    shown = skipn i all ++ firstn i all.
Proof.
  intros all s i NE B. assert (Hi : (i < length all)%nat).
  { destruct B as [(_ & -> & H)|(_ & (v & N & _) & _)]; [destruct all; [congruence|cbn; lia]|apply nth_error_Some; congruence]. }
  assert (E : map (fun k => nth ((i + k) mod length all) all []) (seq 0 (length all)) = skipn i all ++ firstn i all).
  { apply nth_ext with (d := []) (d' := []).
    - rewrite map_length, seq_length, app_length, skipn_length, firstn_length. lia.
    - intros k Hk. rewrite map_length, seq_length in Hk.
      rewrite (nth_indep _ _ (nth ((i + 0) mod length all) all [])) by now rewrite map_length, seq_length.
      rewrite (map_nth (fun k => nth ((i + k) mod length all) all [])), seq_nth by auto. cbn [Nat.add].
      destruct (Nat.lt_ge_cases (i + k) (length all)) as [L|L].
      + rewrite Nat.mod_small by auto. rewrite app_nth1 by (rewrite skipn_length; lia).
        rewrite <- (firstn_skipn i all) at 1. rewrite app_nth2; rewrite firstn_length; [|lia]. f_equal. lia.
      + replace (i + k)%nat with ((i + k - length all) + 1 * length all)%nat by lia.
        rewrite Nat.mod_add, Nat.mod_small by lia. rewrite app_nth2 by (rewrite skipn_length; lia). rewrite skipn_length.
        rewrite <- (firstn_skipn i all) at 2. rewrite app_nth1; [f_equal; lia|rewrite firstn_length; lia]. }
  exists (skipn i all ++ firstn i all). rewrite (C32_cycle all s i) by auto. rewrite E. split; auto. split; auto.
  rewrite <- (firstn_skipn i all) at 1. apply Permutation_app_comm.
Qed.
Print Assumptions C32_all.

(** Without a matching candidate the text stays. *)
Theorem C32_none : forall all s n, (forall v, In v all -> ~ starts s v) -> (s <> [] \/ all = []) ->
  tabs n (new_comp all) s = Ok (repeat s n).
Proof.
  intros all s n H S. assert (N : next (new_comp all) s = Ok (new_comp all, s)).
  { unfold next, new_comp. cbn [c_all c_at c_prev]. destruct all as [|f r] eqn:A; auto. rewrite <- A in *.
    destruct s as [|x s]; [destruct S; congruence|]. change (Z.of_nat 0 =? -1)%Z with false. cbv iota.
    pose proof (first_match_spec (x :: s) all 0) as F. destruct (first_match 0 all (x :: s)) as [[j w]|]; auto.
    destruct F as (d & _ & D1 & D2 & _). exfalso. eapply H; [eapply nth_error_In; exact D1|exact D2]. }
  induction n as [|n IH]; [reflexivity|]. cbn [tabs]. now rewrite N, IH.
Qed.
Print Assumptions C32_none.

(** Whatever text the user types between the tabs, an answer is a candidate or the
    text itself, and the index stays in range. *)
Fixpoint typed (c : completion) (ss : list bytes) : res unit (list bytes) :=
  match ss with
  | [] => Ok []
  | s :: r => match next c s with
              | Ok (c', o) => match typed c' r with Ok l => Ok (o :: l) | Err e => Err e | Panic => Panic end
              | Err e => Err e
              | Panic => Panic
              end
  end.
Theorem C32_safe : forall all ss, exists os, typed (new_comp all) ss = Ok os /\
  Forall2 (fun s o => o = s \/ In o all) ss os.
Proof.
  intros all ss.
  assert (G : forall c, c_all c = all -> (c_at c = 0 \/ c_at c < length all)%nat ->
    exists os, typed c ss = Ok os /\ Forall2 (fun s o => o = s \/ In o all) ss os).
  { induction ss as [|s ss IH]; intros c A B; [exists []; auto|]. cbn [typed].
    assert (S : exists c' o, next c s = Ok (c', o) /\ c_all c' = all /\ (c_at c' = 0 \/ c_at c' < length all)%nat /\ (o = s \/ In o all)).
    { assert (LK : exists c' o, match first_match 0 all s with
          | Some (i, v) => Ok (mkComp all i (Z.of_nat i), v)
          | None => Ok (mkComp all 0 (-1), s) end = @Ok unit _ (c', o) /\
          c_all c' = all /\ (c_at c' = 0 \/ c_at c' < length all)%nat /\ (o = s \/ In o all)).
      { pose proof (first_match_spec s all 0) as F. destruct (first_match 0 all s) as [[i v]|].
        - destruct F as (d & -> & N & _). do 2 eexists. split; [reflexivity|]. split; auto. cbn [c_at Nat.add]. split.
          + right. apply nth_error_Some. congruence.
          + right. eapply nth_error_In; exact N.
        - do 2 eexists. split; [reflexivity|]. auto. }
      unfold next. rewrite A. destruct all as [|f r] eqn:AL.
      - do 2 eexists. split; [reflexivity|]. auto.
      - rewrite <- AL in *. assert (In f all) by (rewrite AL; now left). destruct s as [|x s].
        + do 2 eexists. split; [reflexivity|]. auto.
        + destruct (_ =? _)%Z; auto. destruct (nth_error all (c_at c)) as [v|] eqn:N.
          * destruct (eqb v (x :: s)); auto. destruct (Nat.ltb_spec (c_at c + 1) (length all)) as [L|L].
            -- destruct (nth_error all (c_at c + 1)) as [w|] eqn:W; [|apply nth_error_None in W; lia].
               do 2 eexists. split; [reflexivity|]. cbn. split; auto. split; auto. right. eapply nth_error_In; exact W.
            -- do 2 eexists. split; [reflexivity|]. cbn. auto.
          * apply nth_error_None in N. rewrite AL in *. cbn [length] in *. lia. }
    destruct S as (c' & o & -> & A' & B' & O). destruct (IH c' A' B') as (os & -> & F). exists (o :: os). auto. }
  apply G; auto.
Qed.
Print Assumptions C32_safe.

(** An empty candidate blocks the others. *)
Theorem C32_empty_refuted : exists all, forall n, tabs n (new_comp all) [] = Ok (repeat [] n) /\ In (bs "al") all.
Proof.
  exists [[]; bs "al"]. intros n. split; [|now right; left]. destruct n as [|n]; [reflexivity|].
  assert (G : forall m, tabs m (mkComp [[]; bs "al"] 0 0) [] = Ok (repeat [] m)).
  { induction m as [|m IH]; [reflexivity|]. cbn [tabs next c_all c_prev]. now rewrite IH. }
  cbn [tabs next c_all c_prev new_comp]. now rewrite G.
Qed.
Print Assumptions C32_empty_refuted.

Example C32_case : let all := [bs "al"; bs "bert"; bs "bob"; bs "cy"] in
  ~ In [] all /\ begins all (bs "b") 1 /\
  tabs 5 (new_comp all) (bs "b") = Ok [bs "bert"; bs "bob"; bs "cy"; bs "al"; bs "bert"].
Proof.
  cbv zeta. split; [cbn; intuition discriminate|]. split; [|reflexivity]. right. split; [discriminate|]. split.
  - exists (bs "bert"). split; auto. exists (bs "ert"). reflexivity.
  - intros [|j] v H; [|lia]. intros [= <-] (t & E). discriminate.
Qed.

(** * C48 *)

(** Specification: the cursor is a position in the history followed by an empty line. *)
Record cursor := mkCursor { k_lines : list bytes; k_pos : nat }.
Definition spec_press (c : cursor) (k : key) : cursor * option bytes :=
  match k with
  | Enter cmd => (match cmd with [] => c | _ => mkCursor (k_lines c ++ [cmd]) (S (length (k_lines c))) end, None)
  | Up => if (k_pos c =? 0)%nat then (c, None)
          else (mkCursor (k_lines c) (k_pos c - 1), nth_error (k_lines c) (k_pos c - 1))
  | Down => let p := Nat.min (k_pos c + 1) (length (k_lines c)) in
            (mkCursor (k_lines c) p, nth_error (k_lines c ++ [[]]) p)
  end.
Fixpoint spec_presses (c : cursor) (ks : list key) : cursor * list (option bytes) :=
  match ks with
  | [] => (c, [])
  | k :: r => let '(c1, o) := spec_press c k in let '(c2, l) := spec_presses c1 r in (c2, o :: l)
  end.

Theorem C48_cursor : forall lines ks,
  let '(c, shown) := spec_presses (mkCursor lines (length lines)) ks in
  (k_pos c <= length (k_lines c))%nat /\
  presses (mkHist lines (Z.of_nat (length lines))) ks = Ok (mkHist (k_lines c) (Z.of_nat (k_pos c)), shown).
Proof.
  intros lines ks.
  assert (G : forall c, (k_pos c <= length (k_lines c))%nat ->
    let '(c', shown) := spec_presses c ks in
    (k_pos c' <= length (k_lines c'))%nat /\
    presses (mkHist (k_lines c) (Z.of_nat (k_pos c))) ks = Ok (mkHist (k_lines c') (Z.of_nat (k_pos c')), shown)).
  { induction ks as [|k ks IH]; intros [l p] B; cbn [k_lines k_pos] in *; [cbn; auto|]. cbn [spec_presses presses].
    assert (S : let '(c1, o) := spec_press (mkCursor l p) k in
      (k_pos c1 <= length (k_lines c1))%nat /\ press (mkHist l (Z.of_nat p)) k = Ok (mkHist (k_lines c1) (Z.of_nat (k_pos c1)), o)).
    { destruct k as [cmd| |]; cbn [spec_press press k_lines k_pos h_lines h_at].
      - destruct cmd; cbn [k_lines k_pos]; auto. rewrite app_length. cbn [length]. split; [lia|]. do 3 f_equal. lia.
      - destruct (Nat.eqb_spec p 0) as [->|N]; cbn [k_lines k_pos]; [split; auto|]. split; [lia|].
        destruct (Z.leb_spec (Z.of_nat p) 0); [lia|]. destruct (Z.ltb_spec (Z.of_nat p - 1) 0); [lia|].
        replace (Z.to_nat (Z.of_nat p - 1)) with (p - 1)%nat by lia.
        destruct (nth_error l (p - 1)) eqn:E; [|apply nth_error_None in E; lia]. do 3 f_equal. lia.
      - split; [lia|]. destruct (Z.leb_spec (Z.of_nat (length l) - 1) (Z.of_nat p)) as [H|H].
        + replace (Nat.min (p + 1) (length l)) with (length l) by lia.
          rewrite nth_error_app2, Nat.sub_diag by lia. reflexivity.
        + replace (Nat.min (p + 1) (length l)) with (p + 1)%nat by lia. destruct (Z.ltb_spec (Z.of_nat p + 1) 0); [lia|].
          replace (Z.to_nat (Z.of_nat p + 1)) with (p + 1)%nat by lia. rewrite nth_error_app1 by lia.
          destruct (nth_error l (p + 1)) eqn:E; [|apply nth_error_None in E; lia]. do 3 f_equal. lia. }
    destruct (spec_press (mkCursor l p) k) as [c1 o]. destruct S as [B1 ->]. specialize (IH c1 B1).
    destruct (spec_presses c1 ks) as [c2 os]. destruct IH as [B2 IH]. split; auto. now rewrite IH. }
  apply (G (mkCursor lines (length lines))). auto.
Qed.
Print Assumptions C48_cursor.

(** The saved history is read back: commands without line breaks that do not end
    with a carriage return. *)
Lemma read_lines_line cmd : ~ In 10 cmd -> forall acc rest,
  read_lines acc (cmd ++ 10 :: rest) = trim_right (rev acc ++ cmd ++ [10]) :: read_lines [] rest.
Proof.
  induction cmd as [|x cmd IH]; intros H acc rest; cbn [app read_lines].
  - rewrite eqb_refl. reflexivity.
  - destruct (eqb_spec x 10) as [->|]; [exfalso; apply H; now left|].
    rewrite IH by (intros X; apply H; now right). cbn [rev]. now rewrite <- app_assoc.
Qed.
Lemma trim_line cmd : last cmd 0 <> 13 -> ~ In 10 cmd -> trim_right (cmd ++ [10]) = cmd.
Proof.
  intros H N. unfold trim_right. rewrite rev_app_distr. cbn [rev app drop_crlf]. rewrite eqb_refl. cbn [orb].
  destruct cmd as [|x cmd] using rev_ind; [reflexivity|]. clear IHcmd. rewrite last_last in H. rewrite rev_app_distr. cbn [rev app drop_crlf].
  destruct (eqb_spec x 10) as [->|]; [exfalso; apply N, in_or_app; right; now left|].
  destruct (eqb_spec x 13); [congruence|]. cbn [orb]. cbn [rev]. now rewrite rev_involutive.
Qed.
Theorem C48_file : forall cmds, Forall (fun c => ~ In 10 c /\ last c 0 <> 13) cmds ->
  read_history (fold_left append_file cmds []) =
  mkHist (filter (fun c => negb (eqb c [])) cmds) (Z.of_nat (length (filter (fun c => negb (eqb c [])) cmds))).
Proof.
  intros cmds H. unfold read_history.
  assert (E : read_lines [] (fold_left append_file cmds []) = filter (fun c => negb (eqb c [])) cmds).
  { assert (G : forall file, fold_left append_file cmds file =
      file ++ flat_map (fun c => c ++ [10]) (filter (fun c => negb (eqb c [])) cmds)).
    { clear H. induction cmds as [|c cmds IH]; intros file; cbn [fold_left]; [now rewrite app_nil_r|].
      rewrite IH. unfold append_file. destruct c as [|x c]; [reflexivity|].
      change (filter (fun c => negb (eqb c [])) ((x :: c) :: cmds)) with ((x :: c) :: filter (fun c => negb (eqb c [])) cmds).
      cbn [flat_map]. now rewrite <- !app_assoc. }
    rewrite G. cbn [app]. clear G.
    assert (F : Forall (fun c => ~ In 10 c /\ last c 0 <> 13) (filter (fun c => negb (eqb c [])) cmds)).
    { rewrite Forall_forall in *. intros c I. apply filter_In in I. now apply H. }
    induction F as [|c l [N L] _ IH]; [reflexivity|]. cbn [flat_map]. rewrite <- app_assoc. cbn [app].
    rewrite read_lines_line by auto. cbn [rev app]. now rewrite trim_line, IH. }
  now rewrite E.
Qed.
Print Assumptions C48_file.

Example C48_case :
  presses (read_history (fold_left append_file [bs "/m al hi"; bs "/list"] [])) [Up; Enter (bs "/q"); Up; Up; Up; Up; Down; Down; Down; Down] =
  Ok (mkHist [bs "/m al hi"; bs "/list"; bs "/q"] 3,
      [Some (bs "/list"); None; Some (bs "/q"); Some (bs "/list"); Some (bs "/m al hi"); None; Some (bs "/list"); Some (bs "/q"); Some []; Some []]).
Proof. vm_compute. reflexivity. Qed.

(** * C42 *)

Definition allowed (c : N) : Prop :=
  48 <= c <= 57 \/ 65 <= c <= 90 \/ 97 <= c <= 122 \/ c = 45.

Lemma allowed_spec c : mem c semantic_alphabet = true <-> allowed c.
Proof.
  split.
  - rewrite mem_In. intros H. unfold allowed. cbn in H. lia.
  - intros H. assert (B : c < 123) by (unfold allowed in H; lia).
    assert (X : forallb (fun n => let c := N.of_nat n in
       implb ((48 <=? c) && (c <=? 57) || (65 <=? c) && (c <=? 90) || (97 <=? c) && (c <=? 122) || (c =? 45)) (mem c semantic_alphabet))
       (seq 0 123) = true) by (vm_compute; reflexivity).
    rewrite forallb_forall in X. specialize (X (N.to_nat c)). cbv zeta in X. rewrite N2Nat.id in X.
    assert (P : (48 <=? c) && (c <=? 57) || (65 <=? c) && (c <=? 90) || (97 <=? c) && (c <=? 122) || (c =? 45) = true).
    { rewrite !orb_true_iff, !andb_true_iff, !N.leb_le, N.eqb_eq. unfold allowed in H. tauto. }
    rewrite P in X. cbn [implb] in X. apply X. apply in_seq. lia.
Qed.

Lemma normalize_bytes s : normalize s = filter (fun c => mem c semantic_alphabet) s.
Proof.
  unfold normalize. rewrite runes_filter.
  - induction s as [|c s IH]; auto. cbn [filter]. destruct (mem c semantic_alphabet) eqn:M; auto. cbn [flat_map]. rewrite IH.
    apply allowed_spec in M. unfold encode_rune. destruct (N.ltb_spec c 128); [auto|unfold allowed in M; lia].
  - intros r H. apply allowed_spec in H. unfold allowed in H. lia.
Qed.

(** The normalised string is the sequence of the allowed bytes of the string. *)
Inductive keeps : bytes -> bytes -> Prop :=
| K_nil : keeps [] []
| K_keep c s t : allowed c -> keeps s t -> keeps (c :: s) (c :: t)
| K_drop c s t : ~ allowed c -> keeps s t -> keeps (c :: s) t.

Theorem C42_normalize : forall s,
  keeps s (normalize s) /\ Forall allowed (normalize s) /\ normalize (normalize s) = normalize s /\
  (Forall allowed s -> normalize s = s).
Proof.
  intros s. rewrite !normalize_bytes.
  assert (F : forall l, Forall allowed l -> filter (fun c => mem c semantic_alphabet) l = l).
  { induction 1 as [|c l H _ IH]; auto. cbn [filter]. apply allowed_spec in H. rewrite H. now rewrite IH. }
  assert (A : Forall allowed (filter (fun c => mem c semantic_alphabet) s)).
  { rewrite Forall_forall. intros c I. apply filter_In in I as [_ I]. now apply allowed_spec. }
  split; [|split; [auto|split; auto]].
  - clear. induction s as [|c s IH]; cbn [filter]; [constructor|]. destruct (mem c semantic_alphabet) eqn:M.
    + constructor; auto. now apply allowed_spec.
    + constructor; auto. intros H. apply allowed_spec in H. congruence.
Qed.
Print Assumptions C42_normalize.

(** The version is a semantic version: three numbers, and the build part after a
    plus sign, which does not occur in it. *)
Theorem C42_version : forall build, exists b, keeps build b /\ Forall allowed b /\
  version build = match b with [] => bs "0.4.1" | _ => bs "0.4.1" ++ 43 :: b end.
Proof.
  intros build. destruct (C42_normalize build) as (K & A & _). exists (normalize build). split; auto. split; auto.
  unfold version, version_of. now destruct (normalize build).
Qed.
Print Assumptions C42_version.

Example C42_case : version (bs "a.b+" ++ [195; 169; 255] ++ bs "1-Z ") = bs "0.4.1+ab1-Z".
Proof. vm_compute. reflexivity. Qed.

(** * C37 *)

Definition letter (c : N) : Prop :=
  97 <= c <= 122 \/ 65 <= c <= 90 \/ 48 <= c <= 57 \/ c = 95 \/ c = 45 \/ c = 64 \/ c = 46.

Lemma letter_spec c : mem c valid_letters = true <-> letter c /\ c <> 120 /\ c <> 88.
Proof.
  split.
  - rewrite mem_In. intros H. unfold letter. cbn in H. lia.
  - intros H. assert (B : c < 123) by (unfold letter in H; lia).
    assert (X : forallb (fun n => let c := N.of_nat n in
       implb (((97 <=? c) && (c <=? 122) || (65 <=? c) && (c <=? 90) || (48 <=? c) && (c <=? 57) || (c =? 95) || (c =? 45) || (c =? 64) || (c =? 46))
         && negb (c =? 120) && negb (c =? 88)) (mem c valid_letters))
       (seq 0 123) = true) by (vm_compute; reflexivity).
    rewrite forallb_forall in X. specialize (X (N.to_nat c)). cbv zeta in X. rewrite N2Nat.id in X.
    assert (P : ((97 <=? c) && (c <=? 122) || (65 <=? c) && (c <=? 90) || (48 <=? c) && (c <=? 57) || (c =? 95) || (c =? 45) || (c =? 64) || (c =? 46))
         && negb (c =? 120) && negb (c =? 88) = true).
    { rewrite !andb_true_iff, !orb_true_iff, !andb_true_iff, !negb_true_iff, !N.leb_le, !N.eqb_eq, !N.eqb_neq. unfold letter in H. tauto. }
    rewrite P in X. cbn [implb] in X. apply X. apply in_seq. lia.
Qed.

(** A name is accepted exactly when it consists of letters other than x and X,
    digits and the four signs; then its file is directly in the directory, and
    different names are different files, except for "", "." and "..". *)
Theorem C37_names : forall name,
  (valid_name name = true <-> Forall (fun c => letter c /\ c <> 120 /\ c <> 88) name) /\
  (valid_name name = true -> forall dir,
     join dir name = if eqb name [] || eqb name (bs ".") then dir else if eqb name (bs "..") then tl dir else name :: dir).
Proof.
  intros name.
  assert (V : valid_name name = true <-> Forall (fun c => letter c /\ c <> 120 /\ c <> 88) name).
  { unfold valid_name. rewrite forallb_forall, Forall_forall. split; intros H c I; apply letter_spec, H; auto. }
  split; auto. intros H dir. unfold join.
  assert (S : split_slash [] name = [name]).
  { apply V in H. assert (G : forall acc, split_slash acc name = [rev acc ++ name]).
    { clear V. induction H as [|c name [L _] _ IH]; intros acc; cbn [split_slash]; [now rewrite app_nil_r|].
      destruct (eqb_spec c 47) as [->|]; [unfold letter in L; lia|]. rewrite IH. cbn [rev]. now rewrite <- app_assoc. }
    apply G. }
  rewrite S. cbn [fold_left]. reflexivity.
Qed.
Print Assumptions C37_names.

Example C37_cases :
  map valid_name [bs "friends-1"; bs "a/b"; []; bs ".."; bs "."; bs "xmas"; bs "a b"] = [true; false; true; true; true; false; false] /\
  join [bs "groupchat"; bs "root"] (bs "..") = [bs "root"] /\
  join [bs "groupchat"; bs "root"] (bs "../../etc/x") = [bs "x"; bs "etc"].
Proof. vm_compute. auto. Qed.
