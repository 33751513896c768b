(** Proofs about looking up nicks. *)
From Coq Require Import Permutation.
From Verif Require Import Base LookupModel.

Definition und (s : st) : list bytes := queue s ++ open s ++ lost s.

Lemma nth_split {A} (l : list A) i x : nth_error l i = Some x -> l = firstn i l ++ x :: skipn (S i) l.
Proof. revert i; induction l as [|a l IH]; intros [|i] H; cbn in *; try discriminate; [congruence|]. now rewrite <- (IH i H). Qed.
Lemma remove_perm {A} (l : list A) i x : nth_error l i = Some x -> Permutation l (x :: remove_at i l).
Proof. intros H. rewrite (nth_split l i x H) at 1. unfold remove_at. symmetry. apply Permutation_middle. Qed.

Section Inv.
  Variables (m : bytes) (T : bytes -> bytes -> Prop) (A : bytes -> cause -> Prop).

  Record inv (s : st) : Prop := {
    i_nodup : NoDup (und s);
    i_pend : forall n, In n (pend s) <-> In n (und s);
    i_all : Permutation (map fst (asked s)) (map fst (outs s) ++ und s);
    i_dir : forall n id, mget (dir s) n = Some id -> T n id;
    i_outs : forall n id, In (n, Begun id) (outs s) -> T n id;
    i_asked : forall n w, In (n, w) (asked s) -> A n w /\ n <> [] /\ n <> m;
    i_me : me s = m;
    i_off : online s = false -> open s = [] }.

  Lemma und_nonempty s n : inv s -> In n (und s) -> n <> [].
  Proof.
    intros I H. assert (J : In n (map fst (asked s))).
    { eapply Permutation_in; [symmetry; apply (i_all s I)|]. apply in_or_app; auto. }
    apply in_map_iff in J as ([k w] & <- & J). apply (i_asked s I) in J. tauto.
  Qed.

  Lemma find_spec s n w tag s' : find s n w tag = Some s' ->
    s' = set_find s n w /\ online s = true /\ directory s = true /\ n <> [] /\ n <> me s /\ mget (book s) n = None /\
    ~ In n (pend s) /\ tag = true.
  Proof.
    unfold find, known, mhas.
    destruct (online s); cbn; [|discriminate]. destruct (directory s); cbn; [|discriminate].
    destruct (eqb_spec n []); cbn; [discriminate|]. destruct (eqb_spec n (me s)); cbn; [discriminate|].
    destruct (mget (book s) n); cbn; [discriminate|].
    destruct (mem n (pend s)) eqn:M; cbn; [discriminate|]. destruct tag; cbn; [|discriminate].
    intros [= <-]. repeat split; auto. intros H. apply mem_In in H. congruence.
  Qed.

  Lemma find_inv s n w tag s' : inv s -> A n w -> find s n w tag = Some s' -> inv s'.
  Proof.
    intros I HA H. apply find_spec in H as (-> & ON & DI & NE & NM & NB & NP & _).
    assert (P : Permutation (und (set_find s n w)) (n :: und s)).
    { unfold und, set_find; cbn. rewrite <- app_assoc. cbn. symmetry. apply Permutation_middle. }
    destruct I as [ND PE AL DR OU AS ME OF]. split; cbn.
    - eapply Permutation_NoDup; [symmetry; exact P|]. constructor; auto. rewrite <- PE. exact NP.
    - intros k. rewrite (PE k). split; intros H.
      + eapply Permutation_in; [symmetry; exact P|]. exact H.
      + eapply Permutation_in in H; [|exact P]. exact H.
    - rewrite map_app. cbn. rewrite P.
      transitivity (n :: map fst (asked s)); [symmetry; apply Permutation_cons_append|].
      etransitivity; [apply perm_skip; exact AL|]. apply Permutation_middle.
    - exact DR.
    - exact OU.
    - intros k v H. apply in_app_iff in H as [H|[[= <- <-]|[]]]; [auto|]. rewrite <- ME. auto.
    - exact ME.
    - congruence.
  Qed.

  Lemma find_all_inv f l s : inv s -> (forall n, In (n, true) l -> A n (Invite f)) -> inv (find_all s f l).
  Proof.
    revert s; induction l as [|[n tag] l IH]; intros s I H; cbn; auto.
    apply IH; [|intros k K; apply H; cbn; auto]. destruct (known s n); auto.
    destruct (find s n (Invite f) tag) as [s'|] eqn:F; auto.
    assert (tag = true) by (apply find_spec in F; tauto). subst tag.
    eapply find_inv; [exact I| |exact F]. apply H; cbn; auto.
  Qed.

  Definition allowed (e : event) : Prop :=
    match e with
    | Find n true | Talk n true => A n User
    | Invited f true l => forall n, In (n, true) l -> A n (Invite f)
    | Enlist n id => T n id
    | _ => True
    end.

  Lemma break_inv s : inv s -> inv (break s).
  Proof.
    intros [ND PE AL DR OU AS ME OF].
    assert (P : Permutation (und (break s)) (und s)).
    { unfold und, break; cbn. apply Permutation_app_head, Permutation_app_comm. }
    split; cbn; auto.
    - eapply Permutation_NoDup; [symmetry; exact P|exact ND].
    - intros n. rewrite PE. split; apply Permutation_in; [symmetry|]; exact P.
    - rewrite P. exact AL.
  Qed.

  Lemma answered s i n o : inv s -> nth_error (open s) i = Some n -> (forall id, o = Begun id -> T n id) ->
    inv (log (forget (set_open s (queue s) (remove_at i (open s))) n) n o).
  Proof.
    intros I N HO. pose proof (remove_perm _ _ _ N) as R.
    set (s1 := log _ n o).
    assert (P : Permutation (und s) (n :: und s1)).
    { unfold und, s1; cbn. rewrite R at 1. cbn. symmetry. apply Permutation_middle. }
    destruct I as [ND PE AL DR OU AS ME OF].
    assert (ND1 : NoDup (n :: und s1)) by (eapply Permutation_NoDup; eauto).
    inversion_clear ND1 as [|? ? NI ND2].
    split; auto.
    - intros k. unfold s1 at 1; cbn. rewrite filter_In, PE. split.
      + intros [H E]. eapply Permutation_in in H; [|exact P]. destruct H as [<- | H]; auto.
        rewrite eqb_refl in E. discriminate.
      + intros H. split; [eapply Permutation_in; [symmetry; exact P|cbn; auto]|].
        destruct (eqb_spec k n); [subst; tauto|auto].
    - unfold s1 at 1 2; cbn. rewrite AL, map_app, <- app_assoc. apply Permutation_app_head. exact P.
    - unfold s1; cbn. intros k id H. apply in_app_iff in H as [H|[[= -> ->]|[]]]; auto.
    - unfold s1; cbn. intros F. apply OF in F. rewrite F in N. destruct i; discriminate.
  Qed.

  Lemma step_inv s e s' : inv s -> allowed e -> step true s e = Some s' -> inv s'.
  Proof.
    intros I AL H. destruct e as [n tag|n tag|f kept l|i|i full|n o full| |d| |n id|n|n id|n]; cbn [step] in H.
    - assert (tag = true) by (apply find_spec in H; tauto). subst. eapply find_inv; eauto.
    - destruct (eqb n (me s) || known s n); [discriminate|].
      assert (tag = true) by (apply find_spec in H; tauto). subst. eapply find_inv; eauto.
    - destruct (online s && _); [|discriminate]. injection H as <-. destruct kept; auto. now apply find_all_inv.
    - destruct (nth_error (queue s) i) as [n|] eqn:N; [|discriminate]. destruct (online s) eqn:ON; [|discriminate].
      injection H as <-. pose proof (remove_perm _ _ _ N) as R.
      assert (P : Permutation (und (set_open s (remove_at i (queue s)) (open s ++ [n]))) (und s)).
      { unfold und; cbn. rewrite R at 2. cbn. rewrite <- app_assoc.
        cbn. rewrite !app_assoc. symmetry. apply Permutation_middle. }
      destruct I as [ND PE AA DR OU AS ME OF]. split; cbn; auto.
      + eapply Permutation_NoDup; [symmetry; exact P|exact ND].
      + intros k. rewrite PE. split; apply Permutation_in; [symmetry|]; exact P.
      + rewrite P. exact AA.
      + congruence.
    - destruct (nth_error (open s) i) as [n|] eqn:N; [|discriminate]. injection H as <-.
      assert (NE : n <> []).
      { eapply und_nonempty; [exact I|]. unfold und. apply in_or_app; right. apply in_or_app; left. eapply nth_error_In; eauto. }
      unfold handle. destruct (eqb_spec n []) as [E|_]; [tauto|].
      destruct full.
      + apply break_inv. apply answered; auto. discriminate.
      + apply answered; auto. intros id. unfold answer. destruct (mget (dir s) n) eqn:D; [|discriminate].
        intros [= <-]. now apply (i_dir s I).
    - discriminate.
    - destruct (online s); [|discriminate]. injection H as <-. now apply break_inv.
    - destruct (online s) eqn:ON; [discriminate|]. injection H as <-. destruct I as [ND PE AA DR OU AS ME OF].
      specialize (OF ON). unfold und in *. rewrite OF in *. split; cbn; auto.
    - injection H as <-. destruct I as [ND PE AA DR OU AS ME OF]. split; cbn; auto; try tauto; try constructor; tauto.
    - injection H as <-. destruct I as [ND PE AA DR OU AS ME OF]. split; cbn; auto.
    - injection H as <-. destruct I as [ND PE AA DR OU AS ME OF]. split; cbn; auto.
    - injection H as <-. destruct I as [ND PE AA DR OU AS ME OF]. split; cbn; auto.
      intros k v. rewrite mget_mset. destruct (eqb_spec k n); [intros [= <-]; subst; auto|auto].
    - injection H as <-. destruct I as [ND PE AA DR OU AS ME OF]. split; cbn; auto.
      intros k v. rewrite mget_mdel. destruct (eqb k n); [discriminate|auto].
  Qed.

  Lemma run_inv l s s' : inv s -> (forall e, In e l -> allowed e) -> run true s l = Some s' -> inv s'.
  Proof.
    revert s; induction l as [|e l IH]; intros s I AL H; cbn in H; [congruence|].
    destruct (step true s e) as [s1|] eqn:ST; [|discriminate].
    eapply IH; [eapply step_inv; [exact I|apply AL; cbn; auto|exact ST]|intros; apply AL; cbn; auto|exact H].
  Qed.

  Lemma start_inv b d : (forall n id, mget d n = Some id -> T n id) -> inv (start m b d).
  Proof. intros H. split; cbn; auto; try tauto; constructor. Qed.
End Inv.

(** Without any knowledge of the causes. *)
Definition inv0 (m : bytes) := inv m (fun _ _ => True) (fun _ _ => True).
Lemma allowed0 e : allowed (fun _ _ => True) (fun _ _ => True) e.
Proof. destruct e as [n [|]|n [|]|f [|] l| | | | | | | | | |]; cbn; auto. Qed.

Lemma find_all_keeps f l s n : inv0 (me s) s -> In n (lost s) ->
  In n (lost (find_all s f l)) /\ (forall o, In (n, o) (outs (find_all s f l)) -> In (n, o) (outs s)).
Proof.
  revert s; induction l as [|[k tag] l IH]; intros s I H; cbn; [auto|].
  destruct (known s k); [now apply IH|]. destruct (find s k (Invite f) tag) as [s1|] eqn:F; [|now apply IH].
  pose proof (find_inv _ _ _ _ _ _ _ _ I Logic.I F) as I1. apply find_spec in F as (-> & _).
  apply (IH (set_find s k (Invite f))) in I1; auto.
Qed.

(** A lost request keeps its nick pending until the client is started anew. *)
Lemma step_lost m s e s' n : inv0 m s -> e <> Restart -> step true s e = Some s' -> In n (lost s) ->
  In n (lost s') /\ (forall o, In (n, o) (outs s') -> In (n, o) (outs s)).
Proof.
  intros I NR H L. pose proof (i_me _ _ _ _ I) as ME.
  assert (NO : forall i k, nth_error (open s) i = Some k -> k <> n).
  { intros i k N <-. apply nth_error_In in N. pose proof (i_nodup _ _ _ _ I) as ND. unfold und in ND.
    apply in_split in N as (a & c & E). rewrite E, <- app_assoc in ND. cbn in ND. rewrite app_assoc in ND.
    apply NoDup_remove_2 in ND. apply ND. rewrite !in_app_iff; auto. }
  destruct e as [k tag|k tag|f kept l|i|i full|k o full| |d| |k id|k|k id|k]; cbn [step] in H; try congruence.
  - apply find_spec in H as (-> & _). cbn. auto.
  - destruct (eqb k (me s) || known s k); [discriminate|]. apply find_spec in H as (-> & _). cbn. auto.
  - destruct (online s && _); [|discriminate]. injection H as <-. destruct kept; auto.
    apply find_all_keeps; auto. now rewrite ME.
  - destruct (nth_error (queue s) i); [|discriminate]. destruct (online s); [|discriminate]. injection H as <-. cbn. auto.
  - destruct (nth_error (open s) i) as [k|] eqn:N; [|discriminate]. injection H as <-. pose proof (NO _ _ N) as NK.
    unfold handle. destruct (eqb k []), full; cbn; rewrite ?in_app_iff; (split; [auto|]);
      intros o; rewrite in_app_iff; cbn; intros [J|[[= J1 J2]|[]]]; auto; congruence.
  - discriminate.
  - destruct (online s); [|discriminate]. injection H as <-. cbn. rewrite in_app_iff. auto.
  - destruct (online s); [discriminate|]. injection H as <-. cbn. auto.
  - injection H as <-. cbn. auto.
  - injection H as <-. cbn. auto.
  - injection H as <-. cbn. auto.
  - injection H as <-. cbn. auto.
Qed.

Lemma run_lost m l s s' n : inv0 m s -> ~ In Restart l -> run true s l = Some s' -> In n (lost s) ->
  In n (lost s') /\ (forall o, In (n, o) (outs s') -> In (n, o) (outs s)).
Proof.
  revert s; induction l as [|e l IH]; intros s I NR H L; cbn in H; [injection H as <-; auto|].
  destruct (step true s e) as [s1|] eqn:ST; [|discriminate].
  assert (NE : e <> Restart) by (intros ->; apply NR; cbn; auto).
  destruct (step_lost m s e s1 n I NE ST L) as [L1 O1].
  pose proof (step_inv _ _ _ _ _ _ I (allowed0 e) ST) as I1.
  destruct (IH s1 I1) as [L2 O2]; auto. intros R; apply NR; cbn; auto.
Qed.
