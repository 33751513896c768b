(** Lemmas about requests and replies of the client. *)
From Verif Require Import Base TagStackModel TagStackProofs ReqModel.

Lemma nth_error_upd_eq {A} (l : list A) i x : i < length l -> nth_error (upd l i x) i = Some x.
Proof.
  intros H. unfold upd. rewrite nth_error_app2; rewrite firstn_length; [|lia].
  replace (i - Nat.min i (length l)) with 0 by lia.
  destruct (skipn i l) eqn:E; [|reflexivity].
  apply (f_equal (@length _)) in E. rewrite skipn_length in E. cbn in E. lia.
Qed.

Lemma nth_error_upd_ne {A} (l : list A) i j x : i <> j -> nth_error (upd l i x) j = nth_error l j.
Proof.
  revert i j. induction l as [|a l IH]; intros i j H; [now destruct i|].
  destruct i, j; cbn; auto; [lia|]. apply (IH i j). lia.
Qed.

(** Tags in use and the callback that belongs to each of them. *)
Definition v_open (q : request) : N * option N :=
  match q with OfMsg t id => (t, Some id) | OfAsk _ t _ => (t, None) end.
Definition v_item (it : item) : list (N * option N) :=
  match it with Ask _ t _ => [(t, None)] | _ => [] end.
Definition v_send (p : sender) : list (N * option N) :=
  match p with
  | Idle => [] | Held it => v_item it
  | Popped _ t => [(t, None)] | Ready id t => [(t, Some id)]
  end.
Definition in_use (w : world) : list (N * option N) :=
  map v_open (w_open w) ++ flat_map v_item (c_queue (w_client w)) ++ v_send (c_send (w_client w)).
Definition free (w : world) : list N := contents (c_tags (w_client w)).
Definition view (w : world) : list (N * option N) :=
  in_use w ++ map (fun t => (t, None)) (free w).

Definition r_inv (d : nat) (w : world) : Prop :=
  ts_ok (c_tags (w_client w)) d /\ length (c_cb (w_client w)) = d /\
  (N.of_nat d < 2 ^ 32)%N /\
  (c_online (w_client w) = false -> w_open w = []) /\
  exists lost, Permutation (map fst (view w) ++ lost) (all_tags d) /\
    (c_online (w_client w) = true -> lost = [] /\
       Forall (fun p => nth_error (c_cb (w_client w)) (N.to_nat (fst p)) = Some (snd p)) (view w)).

Lemma all_tags_lt d t : In t (all_tags d) <-> N.to_nat t < d.
Proof.
  unfold all_tags. rewrite in_map_iff. split.
  - intros (k & <- & K). apply in_seq in K. lia.
  - intros H. exists (N.to_nat t). split; [lia|]. apply in_seq. lia.
Qed.

Lemma all_tags_len d : length (all_tags d) = d.
Proof. unfold all_tags. now rewrite map_length, seq_length. Qed.

Lemma remove_at_perm {A} (i : nat) (l : list A) x :
  nth_error l i = Some x -> Permutation l (x :: remove_at i l).
Proof.
  revert i. induction l as [|a l IH]; intros [|i]; cbn; try discriminate.
  - intros [= ->]. reflexivity.
  - intros H. unfold remove_at. cbn. rewrite (IH i H) at 1. apply perm_swap.
Qed.

Lemma pop_spec s d s' r : ts_ok s d -> ts_pop s = (s', r) ->
  ts_ok s' d /\ match r with
                | inl t => contents s = t :: contents s'
                | inr _ => contents s = [] /\ s' = s
                end.
Proof.
  intros K E. pose proof (ts_step_refines s d OPop K) as [K' F].
  unfold ts_step in *. rewrite E in *. cbn in *. split; auto.
  destruct r as [t|e]; destruct (contents s) as [|y l] eqn:C; try discriminate.
  - injection F as F1 F2. now subst.
  - split; auto. unfold ts_pop in E. destruct (ts_at s); [now injection E|discriminate].
Qed.

Lemma push_spec s d t : ts_ok s d -> length (contents s) < d ->
  exists s', ts_push s t = (s', None) /\ ts_ok s' d /\ contents s' = t :: contents s.
Proof.
  intros K L. pose proof (ts_step_refines s d (OPush t) K) as [K' F].
  unfold ts_step in *. destruct (ts_push s t) as [s' e].
  cbn [fst snd spec_step] in *.
  destruct (Nat.ltb_spec (length (contents s)) d); [|lia].
  injection F as F1 F2. subst. eauto.
Qed.

(** Nothing changes but who holds a tag. *)
Lemma inv_move d w w' :
  r_inv d w -> ts_ok (c_tags (w_client w')) d ->
  c_cb (w_client w') = c_cb (w_client w) ->
  c_online (w_client w') = c_online (w_client w) ->
  (c_online (w_client w') = false -> w_open w' = []) ->
  Permutation (view w) (view w') -> r_inv d w'.
Proof.
  intros (K & L & D & O & lost & P & Q) K' C N0 O' V.
  repeat split; auto; try (destruct K'; auto; fail); [now rewrite C|].
  exists lost. split.
  - rewrite <- P. apply Permutation_app_tail. apply Permutation_map. now symmetry.
  - rewrite N0, C. intros On. destruct (Q On) as [Z F]. split; auto.
    eapply Permutation_Forall; eauto.
Qed.

(** The callback of one tag is set. *)
Lemma inv_set d w w' t f f' rest :
  r_inv d w -> ts_ok (c_tags (w_client w')) d ->
  Permutation (view w) ((t, f) :: rest) ->
  c_cb (w_client w') = upd (c_cb (w_client w)) (N.to_nat t) f' ->
  c_online (w_client w') = c_online (w_client w) ->
  (c_online (w_client w') = false -> w_open w' = []) ->
  Permutation (view w') ((t, f') :: rest) -> r_inv d w'.
Proof.
  intros (K & L & D & O & lost & P & Q) K' V C N0 O' V'.
  repeat split; auto; try (destruct K'; auto; fail); [now rewrite C, upd_length|].
  exists lost. split.
  - rewrite <- P. apply Permutation_app_tail.
    rewrite (Permutation_map fst V), (Permutation_map fst V'). reflexivity.
  - rewrite N0, C. intros On. destruct (Q On) as [Z F]. split; auto. subst lost.
    rewrite app_nil_r in P. rewrite (Permutation_map fst V) in P. cbn in P.
    pose proof (Permutation_NoDup (Permutation_sym P) (all_tags_NoDup d)) as ND.
    inversion ND as [|? ? NI ND']; subst.
    assert (T : In t (all_tags (length (c_cb (w_client w)))))
      by (eapply Permutation_in; [exact P|left; reflexivity]).
    apply all_tags_lt in T.
    eapply Permutation_Forall; [symmetry; exact V'|].
    pose proof (Permutation_Forall V F) as F'. inversion F' as [|? ? F1 F2]; subst.
    constructor; cbn.
    + rewrite nth_error_upd_eq; auto.
    + rewrite Forall_forall in *. intros p I. rewrite nth_error_upd_ne; auto.
      intros E. apply NI. apply in_map_iff. exists p. split; auto. lia.
Qed.

Lemma view_tag d w t f : r_inv d w -> In (t, f) (view w) -> N.to_nat t < d.
Proof.
  intros (K & L & D & O & lost & P & Q) I. apply all_tags_lt.
  eapply Permutation_in; [exact P|]. apply in_or_app. left.
  apply in_map_iff. exists (t, f). auto.
Qed.

Lemma view_len d w t f rest : r_inv d w -> Permutation (in_use w) ((t, f) :: rest) ->
  length (free w) < d.
Proof.
  intros (K & L & D & O & lost & P & Q) I. apply Permutation_length in P.
  rewrite all_tags_len in P. unfold view in P.
  rewrite app_length, map_length, app_length, map_length in P.
  apply Permutation_length in I. cbn in I. lia.
Qed.

Definition vdec : forall x y : N * option N, {x = y} + {x <> y}.
Proof. repeat decide equality. Defined.

Lemma perm_counts (l l' : list (N * option N)) :
  (forall x, count_occ vdec l x = count_occ vdec l' x) -> Permutation l l'.
Proof. apply Permutation_count_occ. Qed.

Ltac counts := 
  apply perm_counts; intros ?x; unfold view, in_use, free; cbn [w_client w_open c_queue c_send c_tags
    with_tags with_cb with_queue with_send with_online];
  rewrite ?map_app, ?flat_map_app; cbn [map flat_map v_open v_item v_send app];
  repeat (rewrite ?count_occ_app; cbn [count_occ]);
  repeat match goal with |- context [vdec ?a ?b] => destruct (vdec a b) end; try lia; try congruence.

Lemma take_counts q i it x : nth_error q i = Some it ->
  count_occ vdec (flat_map v_item q) x =
  count_occ vdec (v_item it) x + count_occ vdec (flat_map v_item (remove_at i q)) x.
Proof.
  intros E. rewrite <- count_occ_app.
  apply (proj1 (Permutation_count_occ vdec _ _)). change (v_item it ++ flat_map v_item (remove_at i q))
    with (flat_map v_item (it :: remove_at i q)).
  apply Permutation_flat_map. now apply remove_at_perm.
Qed.

Lemma open_counts q i it x : nth_error q i = Some it ->
  count_occ vdec (map v_open q) x =
  count_occ vdec [v_open it] x + count_occ vdec (map v_open (remove_at i q)) x.
Proof.
  intros E. rewrite <- count_occ_app.
  apply (proj1 (Permutation_count_occ vdec _ _)). change ([v_open it] ++ map v_open (remove_at i q))
    with (map v_open (it :: remove_at i q)).
  apply Permutation_map. now apply remove_at_perm.
Qed.

(** What a reply has to run. *)
Definition owed (q : request) : option N :=
  match q with OfMsg _ id => Some id | OfAsk _ _ _ => None end.

(** Events after which tags stay apart: a new connection starts with no request
    waiting that has a tag of an old one, and the heartbeat finds a tag. *)
Definition untagged (it : item) : bool := match it with Ask _ _ _ => false | _ => true end.
Definition clean (w : world) (e : r_ev) : Prop :=
  match e with
  | ROnline d => (N.of_nat d < 2 ^ 32)%N /\
      forallb untagged (c_queue (w_client w)) = true /\
      match c_send (w_client w) with
      | Idle => True | Held it => untagged it = true | _ => False
      end
  | RBeat _ => ts_at (c_tags (w_client w)) <> 0
  | _ => True
  end.

Lemma untagged_v q : forallb untagged q = true -> flat_map v_item q = [].
Proof.
  induction q as [|it q IH]; cbn; auto. intros H. apply andb_true_iff in H as [A B].
  rewrite (IH B). destruct it; try reflexivity; discriminate.
Qed.

Lemma new_inv d w w' :
  (N.of_nat d < 2 ^ 32)%N -> forall s, ts_new (Z.of_nat d) = Ok s ->
  c_tags (w_client w') = s -> c_cb (w_client w') = repeat None d ->
  c_online (w_client w') = true -> w_open w' = [] ->
  c_queue (w_client w') = c_queue (w_client w) -> c_send (w_client w') = c_send (w_client w) ->
  clean w (ROnline d) -> r_inv d w'.
Proof.
  intros D s E S0 C O P Q S1 (_ & U & H).
  destruct (ts_new_ok d s) as [K K']; auto; [lia|].
  unfold r_inv. rewrite S0, C, repeat_length, O. 
  split; [exact K|split; [reflexivity|split; [exact D|split; [discriminate|]]]].
  assert (V : view w' = map (fun t => (t, None)) (initial_tags d)).
  { unfold view, in_use, free. rewrite P, Q, S1, S0, K', (untagged_v _ U).
    destruct (c_send (w_client w)) as [|it| |]; try easy.
    destruct it; try discriminate; reflexivity. }
  exists []. rewrite app_nil_r, V, map_map, map_id. split.
  - unfold initial_tags, all_tags. rewrite map_rev. symmetry. apply Permutation_rev.
  - intros _. split; auto. apply Forall_forall. intros p I. apply in_map_iff in I as (t & <- & I).
    unfold initial_tags in I. rewrite map_rev in I. apply in_rev in I. apply all_tags_lt in I. cbn.
    now rewrite nth_error_repeat.
Qed.

Ltac same I := eapply inv_move; [exact I|cbn; try exact (proj1 I)|reflexivity|reflexivity|
  cbn; try exact (proj1 (proj2 (proj2 (proj2 I))))|].

Lemma step_inv d w e : r_inv d w -> clean w e ->
  match r_step w e with
  | Panic => False
  | Err _ => True
  | Ok w' => exists d', r_inv d' w' /\
      (w_log w' = w_log w \/ exists q, w_log w' = w_log w ++ [(q, inl (owed q))])
  end.
Proof.
  intros I Cl. pose proof I as (K & L & D & O & lost & P & Q).
  destruct e as [d'| |id|ack id|id|t|i| | | | |sent saved| |i]; cbn [r_step].
  - destruct (c_online (w_client w)) eqn:On; [exact Logic.I|].
    pose proof Cl as [Dd _].
    destruct (ts_new (Z.of_nat d')) as [s| |] eqn:E.
    + exists d'. split; auto. eapply (new_inv d' w); eauto.
    + unfold ts_new in E. destruct (Z.of_nat d' <? 0)%Z; discriminate.
    + unfold ts_new in E. destruct (Z.ltb_spec (Z.of_nat d') 0); [lia|discriminate].
  - destruct (c_online (w_client w)) eqn:On; [|exact Logic.I]. exists d. split; auto.
    repeat split; auto; try (destruct K; auto; fail).
    exists (map fst (map v_open (w_open w)) ++ lost). split; [|discriminate].
    rewrite <- P. unfold view, in_use, free. cbn. rewrite !map_app.
    rewrite <- !app_assoc. 
    apply (Permutation_count_occ N.eq_dec). intros x. rewrite !count_occ_app. lia.
  - exists d. split; auto. same I. counts.
  - destruct (ts_pop (c_tags (w_client w))) as [s [t|]] eqn:E; [|exact Logic.I].
    destruct (pop_spec _ d _ _ K E) as [K' C].
    exists d. split; auto. same I; [exact K'|]. counts.
    all: rewrite C; cbn [map count_occ]; destruct (vdec (t, None) x); congruence || lia.
  - destruct (ts_pop (c_tags (w_client w))) as [s [t|]] eqn:E.
    + destruct (pop_spec _ d _ _ K E) as [K' C].
      exists d. split; auto. same I; [exact K'|]. counts.
      all: rewrite C; cbn [map count_occ]; destruct (vdec (t, None) x); congruence || lia.
    + exfalso. cbn in Cl. unfold ts_pop in E. destruct (ts_at (c_tags (w_client w))); [lia|discriminate].
  - exists d. split; auto. same I. counts.
  - destruct (c_send (w_client w)) eqn:S0; try exact Logic.I.
    destruct (nth_error (c_queue (w_client w)) i) as [it|] eqn:E; [|exact Logic.I].
    exists d. split; auto. same I. counts. rewrite S0. cbn [v_send count_occ].
    rewrite (take_counts _ _ _ x E). lia.
  - destruct (c_send (w_client w)) eqn:S0; try exact Logic.I.
    exists d. split; auto. same I. counts. rewrite S0. cbn [v_send]. lia.
  - destruct (c_send (w_client w)) as [|[id| |]| |] eqn:S0; try exact Logic.I.
    exists d. split; auto. same I. counts. rewrite S0. cbn. lia.
  - destruct (c_send (w_client w)) as [|[id| |]| |] eqn:S0; try exact Logic.I.
    destruct (ts_pop (c_tags (w_client w))) as [s [t|]] eqn:E; [|exact Logic.I].
    destruct (pop_spec _ d _ _ K E) as [K' C].
    exists d. split; auto. same I; [exact K'|]. counts.
    all: rewrite C, S0; cbn [map v_send v_item count_occ]; destruct (vdec (t, None) x); congruence || lia.
  - destruct (c_send (w_client w)) as [| |id t|] eqn:S0; try exact Logic.I.
    assert (V : Permutation (view w) ((t, None) :: map v_open (w_open w) ++
                  flat_map v_item (c_queue (w_client w)) ++ map (fun t => (t, None)) (free w))).
    { unfold view, in_use. rewrite S0. counts. }
    assert (T : N.to_nat t < d).
    { eapply view_tag; [exact I|]. eapply Permutation_in; [symmetry; exact V|]. left; reflexivity. }
    destruct (Nat.ltb_spec (N.to_nat t) (length (c_cb (w_client w)))); [|lia].
    exists d. split; auto.
    eapply inv_set; [exact I|exact K|exact V|reflexivity|reflexivity|exact O|]. counts.
  - destruct (c_send (w_client w)) as [| |id0 t0|id t] eqn:S0; try exact Logic.I.
    destruct sent.
    + destruct (c_online (w_client w)) eqn:On; [|exact Logic.I].
      exists d. split; auto.
      destruct saved; (eapply inv_move; [exact I|exact K|reflexivity|reflexivity| |]);
        cbn; rewrite ?On; try discriminate; counts; rewrite S0; cbn [v_send count_occ];
        destruct (vdec (t, Some id) x); congruence || lia.
    + assert (V : Permutation (view w) ((t, Some id) :: map v_open (w_open w) ++
                  flat_map v_item (c_queue (w_client w)) ++ map (fun t => (t, None)) (free w))).
      { unfold view, in_use. rewrite S0. counts. }
      assert (T : N.to_nat t < d).
      { eapply view_tag; [exact I|]. eapply Permutation_in; [symmetry; exact V|]. left; reflexivity. }
      destruct (Nat.ltb_spec (N.to_nat t) (length (c_cb (w_client w)))); [|lia].
      destruct (push_spec (c_tags (w_client w)) d t K) as (s' & E & K' & C).
      { eapply (view_len d w t (Some id)); [exact I|]. unfold in_use. rewrite S0. cbn [v_send].
        rewrite app_assoc. symmetry. apply Permutation_cons_append. }
      exists d. split; auto.
      eapply inv_set; [exact I| |exact V|reflexivity|reflexivity|exact O|];
        cbn; rewrite E; cbn [fst]; [exact K'|].
      counts; rewrite C; cbn [map count_occ]; destruct (vdec (t, None) x); congruence || lia.
  - destruct (c_online (w_client w)) eqn:On; [|exact Logic.I].
    destruct (c_send (w_client w)) as [|[|ack t id|t]| |] eqn:S0; try exact Logic.I.
    + exists d. split; auto. eapply inv_move; [exact I|exact K|reflexivity|reflexivity| |];
        cbn; rewrite ?On; try discriminate.
      counts; rewrite S0; cbn [v_send v_item count_occ];
        destruct (vdec (t, None) x); congruence || lia.
    + exists d. split; auto. same I. counts. rewrite S0. cbn. lia.
  - destruct (nth_error (w_open w) i) as [q|] eqn:E; [|exact Logic.I].
    assert (On : c_online (w_client w) = true).
    { destruct (c_online (w_client w)) eqn:On; auto. rewrite (O eq_refl) in E. now destruct i. }
    assert (V : Permutation (view w) (v_open q :: map v_open (remove_at i (w_open w)) ++
                  flat_map v_item (c_queue (w_client w)) ++ v_send (c_send (w_client w)) ++
                  map (fun t => (t, None)) (free w))).
    { counts. all: rewrite (open_counts _ _ _ x E); cbn [count_occ];
      destruct (vdec (v_open q) x); congruence || lia. }
    assert (U : Permutation (in_use w) (v_open q :: map v_open (remove_at i (w_open w)) ++
                  flat_map v_item (c_queue (w_client w)) ++ v_send (c_send (w_client w)))).
    { counts. all: rewrite (open_counts _ _ _ x E); cbn [count_occ];
      destruct (vdec (v_open q) x); congruence || lia. }
    set (t := fst (v_open q)).
    assert (QV : v_open q = (t, owed q)) by (destruct q; reflexivity).
    rewrite QV in V, U.
    assert (IV : In (t, owed q) (view w)).
    { eapply Permutation_in; [symmetry; exact V|]. left; reflexivity. }
    assert (T : N.to_nat t < d) by (eapply view_tag; eauto).
    destruct (push_spec (c_tags (w_client w)) d t K) as (s' & Ep & K' & C).
    { eapply (view_len d w t); [exact I|exact U]. }
    destruct (Q On) as [_ F]. rewrite Forall_forall in F. specialize (F _ IV). cbn in F.
    assert (G : exists c' , handle_reply (w_client w)
        (match q with OfMsg _ _ => true | OfAsk a _ _ => a end) t = Goes c' (owed q) /\
        c_tags c' = s' /\ c_online c' = true /\ c_queue c' = c_queue (w_client w) /\
        c_send c' = c_send (w_client w) /\
        c_cb c' = upd (c_cb (w_client w)) (N.to_nat t) None).
    { unfold handle_reply. destruct q as [t1 id|ack t1 id]; cbn in t; subst t.
      - rewrite L. destruct (N.ltb_spec (u32 (N.of_nat d)) t1).
        + unfold u32 in *. rewrite N.mod_small in *; lia.
        + rewrite F. cbn [c_tags with_cb]. rewrite Ep. eexists. repeat split; auto.
      - assert (NC : upd (c_cb (w_client w)) (N.to_nat t1) None = c_cb (w_client w)).
        { cbn in F. clear -F. revert F. generalize (N.to_nat t1), (c_cb (w_client w)).
          intros n l. revert n. induction l as [|a l IH]; intros [|n]; cbn; try discriminate.
          - intros [= ->]. reflexivity.
          - intros H. f_equal. now apply (IH n). }
        destruct ack.
        + rewrite L. destruct (N.ltb_spec (u32 (N.of_nat d)) t1).
          * unfold u32 in *. rewrite N.mod_small in *; lia.
          * rewrite F. cbn [c_tags with_cb]. rewrite Ep. eexists. repeat split; auto.
        + rewrite Ep. eexists. repeat split; auto. }
    destruct G as (c' & G & G1 & G2 & G3 & G4 & G5).
    assert (R : (match q with OfMsg t _ => (true, t) | OfAsk a t _ => (a, t) end) =
                (match q with OfMsg _ _ => true | OfAsk a _ _ => a end, t)) by (destruct q; reflexivity).
    rewrite R, G. exists d. split; [|right; exists q; reflexivity].
    eapply inv_set; [exact I|cbn; rewrite G1; exact K'|exact V|exact G5|cbn; congruence|
      cbn; rewrite G2; discriminate|].
    unfold view, in_use, free. cbn [w_client w_open]. rewrite G1, G3, G4, C.
    counts; destruct (vdec (t, None) x); congruence || lia.
Qed.
