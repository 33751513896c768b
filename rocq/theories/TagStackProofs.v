(** Specifications and lemmas for the tag stacks. *)
From Verif Require Import Base TagStackModel.

(** * Specification: a bounded LIFO stack, top first. *)
Definition spec_step (cap : nat) (l : list N) (o : ts_op) : list N * ts_out :=
  match o with
  | OPush x => if length l <? cap then (x :: l, RPush None)
               else (l, RPush (Some ErrOverflow))
  | OPop => match l with
            | [] => ([], RPop (inr ErrUnderflow))
            | x :: r => (r, RPop (inl x))
            end
  end.

Fixpoint spec_run (cap : nat) (l : list N) (ops : list ts_op) : list N * list ts_out :=
  match ops with
  | [] => (l, [])
  | o :: ops' =>
      let (l1, r) := spec_step cap l o in
      let (l2, rs) := spec_run cap l1 ops' in (l2, r :: rs)
  end.

(** Tags d-1, ..., 1, 0. *)
Definition initial_tags (d : nat) : list N := map N.of_nat (rev (seq 0 d)).

(** What the array stores, most recent first. *)
Definition contents (s : tagstack) : list N := rev (firstn (ts_at s) (ts_stack s)).

Definition ts_ok (s : tagstack) (d : nat) : Prop :=
  length (ts_stack s) = d /\ ts_at s <= d.

Lemma contents_length s d : ts_ok s d -> length (contents s) = ts_at s.
Proof.
  intros [H1 H2]. unfold contents. rewrite rev_length, firstn_length. lia.
Qed.

Lemma ts_step_refines s d o :
  ts_ok s d ->
  ts_ok (fst (ts_step s o)) d /\
  (contents (fst (ts_step s o)), snd (ts_step s o)) = spec_step d (contents s) o.
Proof.
  intros Hok. pose proof (contents_length _ _ Hok) as Hlen. destruct Hok as [H1 H2].
  destruct o as [x|]; unfold ts_step, spec_step.
  - rewrite Hlen. unfold ts_push. rewrite H1.
    destruct (Nat.ltb_spec (ts_at s) d) as [Hlt|Hge]; simpl.
    + split; [split; simpl; [rewrite upd_length|]; lia|].
      unfold contents; simpl ts_at; simpl ts_stack.
      rewrite firstn_upd by lia. now rewrite rev_app_distr.
    + split; [split; simpl; lia|reflexivity].
  - unfold ts_pop. destruct (ts_at s) as [|a] eqn:Ea; simpl.
    + split; [split; lia|]. unfold contents. rewrite Ea. reflexivity.
    + split; [split; simpl; lia|].
      unfold contents; simpl ts_at; simpl ts_stack. rewrite Ea.
      rewrite (firstn_S_nth (ts_stack s) a 0%N) by lia.
      rewrite rev_app_distr. reflexivity.
Qed.

Lemma ts_run_refines ops : forall s d,
  ts_ok s d ->
  ts_ok (fst (ts_run s ops)) d /\
  (contents (fst (ts_run s ops)), snd (ts_run s ops)) = spec_run d (contents s) ops.
Proof.
  induction ops as [|o ops IH]; intros s d Hok; simpl; [auto|].
  destruct (ts_step_refines s d o Hok) as [Hok' E].
  destruct (ts_step s o) as [s1 r]; simpl in *.
  destruct (IH s1 d Hok') as [Hok'' E'].
  destruct (ts_run s1 ops) as [s2 rs]; simpl in *.
  split; auto. rewrite <- E, <- E'. reflexivity.
Qed.

Lemma map_u32_seq d : forall a, (N.of_nat a + N.of_nat d <= 2 ^ 32)%N ->
  map (fun k => u32 (N.of_nat k)) (seq a d) = map N.of_nat (seq a d).
Proof.
  intros a Ha. apply map_ext_in. intros k Hk. apply in_seq in Hk.
  unfold u32. apply N.mod_small. lia.
Qed.

Lemma ts_new_ok d s :
  (N.of_nat d <= 2 ^ 32)%N -> ts_new (Z.of_nat d) = Ok s ->
  ts_ok s d /\ contents s = initial_tags d.
Proof.
  unfold ts_new. intros Hd. destruct (Z.ltb_spec (Z.of_nat d) 0); [lia|].
  rewrite Nat2Z.id. intros [= <-]. split.
  - split; simpl; [now rewrite map_length, seq_length|lia].
  - unfold contents, initial_tags; simpl. rewrite map_u32_seq by lia.
    rewrite firstn_all2 by (now rewrite map_length, seq_length).
    now rewrite map_rev.
Qed.

Lemma ts_lifo d ops :
  (N.of_nat d <= 2 ^ 32)%N ->
  exists s, ts_new (Z.of_nat d) = Ok s /\
    snd (ts_run s ops) = snd (spec_run d (initial_tags d) ops).
Proof.
  intros Hd. destruct (ts_new (Z.of_nat d)) as [s|e|] eqn:E.
  - exists s. split; auto. destruct (ts_new_ok d s Hd E) as [Hok Hc].
    destruct (ts_run_refines ops s d Hok) as [_ H]. rewrite Hc in H.
    now rewrite <- H.
  - unfold ts_new in E. destruct (_ <? _)%Z; discriminate.
  - unfold ts_new in E. destruct (Z.ltb_spec (Z.of_nat d) 0); [lia|discriminate].
Qed.

(** Every Pop of a reachable stack reads inside the array. *)
Lemma ts_pop_in_range d ops s :
  (N.of_nat d <= 2 ^ 32)%N -> ts_new (Z.of_nat d) = Ok s ->
  ts_at (fst (ts_run s ops)) <= length (ts_stack (fst (ts_run s ops))) /\
  ts_depth (fst (ts_run s ops)) = d.
Proof.
  intros Hd E. destruct (ts_new_ok d s Hd E) as [Hok _].
  destruct (ts_run_refines ops s d Hok) as [[H1 H2] _].
  unfold ts_depth. lia.
Qed.

(** * Blocking flavour: FIFO *)

Fixpoint pushed (es : list tc_ev) : list N :=
  match es with
  | [] => []
  | EPushed x :: r => x :: pushed r
  | EPopped _ :: r => pushed r
  end.
Fixpoint popped (es : list tc_ev) : list N :=
  match es with
  | [] => []
  | EPushed _ :: r => popped r
  | EPopped x :: r => x :: popped r
  end.

Lemma tc_run_fifo es : forall c c', tc_run c es = Some c' ->
  tc_buf c ++ pushed es = popped es ++ tc_buf c' /\ tc_cap c' = tc_cap c /\
  (length (tc_buf c) <= tc_cap c -> length (tc_buf c') <= tc_cap c').
Proof.
  induction es as [|e es IH]; simpl; intros c c' H.
  - injection H as <-. rewrite app_nil_r. auto.
  - destruct e as [x|x]; simpl in H.
    + unfold tc_push in H. destruct (Nat.ltb_spec (length (tc_buf c)) (tc_cap c)); [|discriminate].
      destruct (IH _ _ H) as (E1 & E2 & E3). simpl in *.
      rewrite <- E1, <- app_assoc. split; [reflexivity|]. split; auto.
      intros _. apply E3. rewrite app_length. simpl. lia.
    + unfold tc_pop in H. destruct (tc_buf c) as [|y r] eqn:Eb; [discriminate|].
      destruct (N.eqb_spec x y) as [->|]; [|discriminate].
      destruct (IH _ _ H) as (E1 & E2 & E3). simpl in *.
      rewrite E1. split; auto. split; auto. intros Hl. apply E3. lia.
Qed.

Definition fifo_tags (d : nat) : list N := map N.of_nat (seq 0 d).

Lemma tc_new_eq d : (N.of_nat d <= 2 ^ 32)%N ->
  tc_new (Z.of_nat d) = Ok {| tc_cap := d; tc_buf := fifo_tags d |}.
Proof.
  intros Hd. unfold tc_new. destruct (Z.ltb_spec (Z.of_nat d) 0); [lia|].
  rewrite Nat2Z.id, map_u32_seq by lia. reflexivity.
Qed.

Lemma tc_fifo d c es c' :
  (N.of_nat d <= 2 ^ 32)%N -> tc_new (Z.of_nat d) = Ok c -> tc_run c es = Some c' ->
  exists rest,
    fifo_tags d ++ pushed es = popped es ++ rest /\ length rest <= d /\
    (forall x, tc_push c' x = None <-> length rest = d) /\
    (tc_pop c' = None <-> rest = []) /\
    (forall c'' y, tc_pop c' = Some (c'', y) -> hd_error rest = Some y) /\
    tc_depth c' = length rest.
Proof.
  intros Hd Hn Hr. rewrite tc_new_eq in Hn by auto. injection Hn as <-.
  destruct (tc_run_fifo _ _ _ Hr) as (E1 & E2 & E3). simpl in *.
  assert (Hlen : length (tc_buf c') <= tc_cap c').
  { apply E3. unfold fifo_tags. rewrite map_length, seq_length. lia. }
  exists (tc_buf c'). split; auto. split; [lia|]. split; [|split; [|split]].
  - intros x. unfold tc_push. destruct (Nat.ltb_spec (length (tc_buf c')) (tc_cap c'));
      split; try discriminate; try lia; auto.
  - unfold tc_pop. destruct (tc_buf c'); split; congruence.
  - intros c'' y. unfold tc_pop. destruct (tc_buf c'); [discriminate|].
    intros [= _ ->]. reflexivity.
  - reflexivity.
Qed.

(** * Holders *)

Definition all_tags (d : nat) : list N := map N.of_nat (seq 0 d).

Lemma all_tags_NoDup d : NoDup (all_tags d).
Proof.
  unfold all_tags. apply FinFun.Injective_map_NoDup; [|apply seq_NoDup].
  intros x y. lia.
Qed.

Lemma remove_one_perm p l : In p l -> Permutation l (p :: remove_one p l).
Proof.
  induction l as [|q l IH]; simpl; [tauto|].
  intros [->|Hin].
  - rewrite eqb_refl. reflexivity.
  - destruct (eqb_spec p q) as [->|Hne]; [reflexivity|].
    rewrite (IH Hin) at 1. apply perm_swap.
Qed.

Definition h_inv (d : nat) (s : tagstack) (held : list (N * N)) : Prop :=
  ts_ok s d /\ Permutation (map snd held ++ contents s) (all_tags d).

Lemma h_step_inv d s held e s' held' er :
  h_inv d s held -> h_step (s, held) e = Some (s', held', er) ->
  h_inv d s' held' /\
  (forall c t, e = HPush c t -> er = None /\ ~ In t (map snd held')) /\
  (forall c, e = HPop c -> (er = None <-> length held < d) /\
     (er <> None -> held' = held)).
Proof.
  intros [Hok Hp] Hs. destruct e as [c|c t]; simpl in Hs.
  - pose proof (ts_step_refines s d OPop Hok) as [Hok' E]. unfold ts_step in *.
    assert (Hl : length held + ts_at s = d).
    { apply Permutation_length in Hp. rewrite app_length, map_length in Hp.
      rewrite (contents_length s d Hok) in Hp. unfold all_tags in Hp.
      rewrite map_length, seq_length in Hp. lia. }
    destruct (ts_pop s) as [s1 [t|e1]] eqn:Ep; injection Hs; intros; subst s' held' er; simpl in *.
    + destruct (contents s) as [|y r] eqn:Ec; [discriminate|].
      injection E as Ec' Et. subst y.
      split; [split; auto|].
      * rewrite Ec'. simpl. rewrite <- Hp. apply Permutation_middle.
      * split; [discriminate|]. intros c0 _. split; [|congruence].
        split; [intros _|auto]. unfold ts_pop in Ep.
        destruct (ts_at s); [discriminate|lia].
    + destruct (contents s) as [|y r] eqn:Ec; [|discriminate].
      injection E as Ec' Ee. subst e1.
      split; [split; auto; now rewrite Ec'|].
      split; [discriminate|]. intros c0 _. split; [|auto].
      split; [discriminate|]. intros Hlt.
      assert (length (contents s) = 0) by (rewrite Ec; reflexivity).
      rewrite (contents_length s d Hok) in H. lia.
  - destruct (mem (c, t) held) eqn:Em; [|discriminate].
    apply mem_In in Em.
    pose proof (remove_one_perm _ _ Em) as Hrp.
    pose proof (ts_step_refines s d (OPush t) Hok) as [Hok' E]. unfold ts_step in *.
    assert (Hl : length held + ts_at s = d).
    { apply Permutation_length in Hp. rewrite app_length, map_length in Hp.
      rewrite (contents_length s d Hok) in Hp. unfold all_tags in Hp.
      rewrite map_length, seq_length in Hp. lia. }
    assert (Hlh : length held = S (length (remove_one (c, t) held))).
    { apply Permutation_length in Hrp. exact Hrp. }
    destruct (ts_push s t) as [s1 [e1|]] eqn:Ep; injection Hs; intros; subst s' held' er; simpl in *.
    + exfalso. unfold ts_push in Ep. destruct Hok as [Hk1 Hk2].
      destruct (Nat.ltb_spec (ts_at s) (length (ts_stack s))); [discriminate|lia].
    + rewrite (contents_length s d Hok) in E.
      destruct (Nat.ltb_spec (ts_at s) d); [|lia].
      injection E as Ec'.
      assert (Hp' : Permutation (map snd (remove_one (c, t) held) ++ contents s1) (all_tags d)).
      { rewrite Ec'. rewrite <- Hp. rewrite (Permutation_map snd Hrp) at 1. simpl.
        symmetry. apply Permutation_middle. }
      split; [split; auto|]. split; [|discriminate].
      intros c0 t0 [= <- <-]. split; auto.
      intros Hin. rewrite Ec' in Hp'.
      pose proof (Permutation_NoDup (Permutation_sym Hp') (all_tags_NoDup d)) as ND.
      rewrite <- Permutation_middle in ND. inversion ND as [|? ? Hni _]; subst.
      apply Hni. apply in_or_app. auto.
Qed.

Lemma h_run_inv d es : forall s held s' held' ers,
  h_inv d s held -> h_run (s, held) es = Some (s', held', ers) -> h_inv d s' held'.
Proof.
  induction es as [|e es IH]; cbn [h_run]; intros s held s' held' ers Hi Hr.
  - injection Hr as <- <- _. auto.
  - destruct (h_step (s, held) e) as [[[s1 h1] er]|] eqn:Es; [|discriminate].
    destruct (h_run (s1, h1) es) as [[[s2 h2] ers2]|] eqn:Er; [|discriminate].
    injection Hr as <- <- _. eapply IH; [|exact Er].
    eapply h_step_inv; eauto.
Qed.

Lemma h_run_app st es1 es2 st' ers :
  h_run st (es1 ++ es2) = Some (st', ers) ->
  exists st1 ers1 ers2, h_run st es1 = Some (st1, ers1) /\
    h_run st1 es2 = Some (st', ers2) /\ ers = ers1 ++ ers2.
Proof.
  revert st ers. induction es1 as [|e es1 IH]; simpl; intros st ers H.
  - exists st, [], ers. auto.
  - destruct (h_step st e) as [[st1 er]|] eqn:Es; [|discriminate].
    destruct (h_run st1 (es1 ++ es2)) as [[st2 ers2]|] eqn:Er; [|discriminate].
    injection H as <- <-. destruct (IH _ _ Er) as (sta & e1 & e2 & Ha & Hb & ->).
    exists sta, (er :: e1), e2. rewrite Ha. auto.
Qed.

(** Summary used by the property: any disciplined history. *)
Lemma h_unique d s es s' held ers :
  (N.of_nat d <= 2 ^ 32)%N -> ts_new (Z.of_nat d) = Ok s ->
  h_run (s, []) es = Some (s', held, ers) ->
  NoDup (map snd held) /\
  (forall t, In t (map snd held) -> (t < N.of_nat d)%N) /\
  length held <= d /\
  (* free tags are exactly the tags not held: popping until failure yields them *)
  (exists free, Permutation (map snd held ++ free) (all_tags d) /\
     snd (ts_run s' (repeat OPop (S (length free)))) =
       map (fun t => RPop (inl t)) free ++ [RPop (inr ErrUnderflow)]) /\
  (* a holder can always give its tag back *)
  (forall c t, In (c, t) held -> exists st'', h_step (s', held) (HPush c t) = Some (st'', None)).
Proof.
  intros Hd Hn Hr. destruct (ts_new_ok d s Hd Hn) as [Hok Hc].
  assert (Hi0 : h_inv d s []).
  { split; auto. simpl. rewrite Hc. unfold initial_tags, all_tags.
    rewrite map_rev. symmetry. apply Permutation_rev. }
  pose proof (h_run_inv _ _ _ _ _ _ _ Hi0 Hr) as Hi. destruct Hi as [Hok' Hp].
  pose proof (Permutation_NoDup (Permutation_sym Hp) (all_tags_NoDup d)) as ND.
  split; [|split; [|split; [|split]]].
  - clear -ND. revert ND. generalize (contents s'). intros l.
    induction (map snd held) as [|a m IH]; simpl; intros ND; constructor;
      inversion ND as [|? ? Hni ND']; subst; auto.
    intros Hin; apply Hni; apply in_or_app; auto.
  - intros t Ht. assert (Hin : In t (all_tags d)).
    { apply (Permutation_in _ Hp). apply in_or_app; auto. }
    unfold all_tags in Hin. apply in_map_iff in Hin. destruct Hin as [k [<- Hk]].
    apply in_seq in Hk. lia.
  - apply Permutation_length in Hp. rewrite app_length, map_length in Hp.
    unfold all_tags in Hp. rewrite map_length, seq_length in Hp. lia.
  - exists (contents s'). split; auto.
    destruct (ts_run_refines (repeat OPop (S (length (contents s')))) s' d Hok') as [_ E].
    assert (Hsp : forall l, snd (spec_run d l (repeat OPop (S (length l)))) =
       map (fun t => RPop (inl t)) l ++ [RPop (inr ErrUnderflow)]).
    { induction l as [|a l IHl]; simpl; auto. simpl in IHl.
      destruct (match l with
                | [] => _
                | _ => _ end) as [l1 r1] eqn:El.
      destruct (spec_run d l1 (repeat OPop (length l))) as [l2 rs]. simpl in *.
      now rewrite IHl. }
    rewrite <- Hsp, <- E. reflexivity.
  - intros c t Hin. destruct (h_step (s', held) (HPush c t)) as [[st'' er]|] eqn:Es.
    + destruct st'' as [s2 h2].
      destruct (h_step_inv d s' held (HPush c t) s2 h2 er) as (_ & H2 & _); auto.
      { split; auto. }
      destruct (H2 c t eq_refl) as [-> _]. eauto.
    + exfalso. simpl in Es. apply mem_In in Hin. rewrite Hin in Es.
      destruct (ts_push s' t) as [? [?|]]; discriminate.
Qed.

(** Blocking flavour. *)
Definition hb_inv (d : nat) (c : tagchan) (held : list (N * N)) : Prop :=
  tc_cap c = d /\ Permutation (map snd held ++ tc_buf c) (all_tags d).

Lemma hb_step_inv d c held e c' held' :
  hb_inv d c held -> hb_step (c, held) e = HBDone c' held' -> hb_inv d c' held'.
Proof.
  intros [Hc Hp] Hs. destruct e as [g|g t]; simpl in Hs.
  - unfold tc_pop in Hs. destruct (tc_buf c) as [|y r] eqn:Eb; [discriminate|].
    injection Hs as <- <-. split; auto. simpl. rewrite <- Hp.
    apply Permutation_middle.
  - destruct (mem (g, t) held) eqn:Em; [|discriminate]. apply mem_In in Em.
    unfold tc_push in Hs. destruct (_ <? _); [|discriminate].
    injection Hs as <- <-. split; auto. simpl. rewrite <- Hp.
    rewrite (Permutation_map snd (remove_one_perm _ _ Em)). simpl.
    rewrite app_assoc. symmetry. apply Permutation_cons_append.
Qed.

Lemma hb_run_inv d es : forall c held c' held',
  hb_inv d c held -> hb_run (c, held) es = Some (c', held') -> hb_inv d c' held'.
Proof.
  induction es as [|e es IH]; intros c held c' held' Hi Hr.
  - injection Hr as <- <-. auto.
  - cbn [hb_run] in Hr. destruct (hb_step (c, held) e) as [| |c1 h1] eqn:Es; try discriminate.
    eapply IH; [|exact Hr]. eapply hb_step_inv; eauto.
Qed.

Lemma hb_unique d c es c' held :
  (N.of_nat d <= 2 ^ 32)%N -> tc_new (Z.of_nat d) = Ok c ->
  hb_run (c, []) es = Some (c', held) ->
  NoDup (map snd held) /\
  (forall t, In t (map snd held) -> (t < N.of_nat d)%N) /\
  (* returning a held tag never waits *)
  (forall g t, In (g, t) held -> exists c'', hb_step (c', held) (HPush g t) = HBDone c'' (remove_one (g, t) held)) /\
  (* taking a tag waits exactly when all are held *)
  (forall g, hb_step (c', held) (HPop g) = HBWait <-> length held = d).
Proof.
  intros Hd Hn Hr. rewrite tc_new_eq in Hn by auto. injection Hn as <-.
  assert (Hi0 : hb_inv d {| tc_cap := d; tc_buf := fifo_tags d |} []).
  { split; [reflexivity|apply Permutation_refl]. }
  destruct (hb_run_inv _ _ _ _ _ _ Hi0 Hr) as [Hcap Hp].
  pose proof (Permutation_NoDup (Permutation_sym Hp) (all_tags_NoDup d)) as ND.
  assert (Hlen : length held + length (tc_buf c') = d).
  { apply Permutation_length in Hp. rewrite app_length, map_length in Hp.
    unfold all_tags in Hp. rewrite map_length, seq_length in Hp. lia. }
  split; [|split; [|split]].
  - clear -ND. revert ND. generalize (tc_buf c'). intros l.
    induction (map snd held) as [|a m IH]; simpl; intros ND; constructor;
      inversion ND as [|? ? Hni ND']; subst; auto.
    intros Hin; apply Hni; apply in_or_app; auto.
  - intros t Ht. assert (Hin : In t (all_tags d)).
    { apply (Permutation_in _ Hp). apply in_or_app; auto. }
    unfold all_tags in Hin. apply in_map_iff in Hin. destruct Hin as [k [<- Hk]].
    apply in_seq in Hk. lia.
  - intros g t Hin. simpl. pose proof Hin as Hin'. apply mem_In in Hin'. rewrite Hin'.
    unfold tc_push. destruct (Nat.ltb_spec (length (tc_buf c')) (tc_cap c')); eauto.
    exfalso. destruct held; [destruct Hin|simpl in *; lia].
  - intros g. simpl. unfold tc_pop. destruct (tc_buf c') as [|y r]; simpl in *.
    + split; [lia|auto].
    + split; [discriminate|lia].
Qed.
