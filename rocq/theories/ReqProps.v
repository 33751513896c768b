(** C59: a reply of the server reaches the request it answers. *)
From Verif Require Import Base TagStackModel TagStackProofs ReqModel ReqProofs.

(** Tags that a request of the client holds, whether it waits, is being sent or
    awaits its reply. *)
Definition tags (w : world) : list N :=
  map (fun q => match q with OfMsg t _ => t | OfAsk _ t _ => t end) (w_open w) ++
  flat_map (fun it => match it with Ask _ t _ => [t] | _ => [] end) (c_queue (w_client w)) ++
  match c_send (w_client w) with
  | Held (Ask _ t _) => [t] | Popped _ t => [t] | Ready _ t => [t] | _ => []
  end.

(** Tags that Pop would hand out. *)
Fixpoint pops (n : nat) (s : tagstack) : list N :=
  match n with
  | O => []
  | S n' => match ts_pop s with (s', inl t) => t :: pops n' s' | (_, inr _) => [] end
  end.

(** All events of a run are clean in the state they happen in. *)
Fixpoint clean_run (w : world) (es : list r_ev) : Prop :=
  match es with
  | [] => True
  | e :: es' => clean w e /\ forall w', r_step w e = Ok w' -> clean_run w' es'
  end.

Lemma start_inv : r_inv 0 w_start.
Proof.
  split; [split; cbn; lia|]. split; [reflexivity|]. split; [lia|]. split; [reflexivity|].
  exists []. split; [reflexivity|discriminate].
Qed.

Lemma run_inv es : forall d w, r_inv d w -> clean_run w es ->
  (forall q r, In (q, r) (w_log w) -> r = inl (owed q)) ->
  r_run w es <> Panic /\
  forall w', r_run w es = Ok w' ->
    (exists d', r_inv d' w') /\ forall q r, In (q, r) (w_log w') -> r = inl (owed q).
Proof.
  induction es as [|e es IH]; intros d w I Cl G; cbn.
  - split; [discriminate|]. intros w' [= <-]. eauto.
  - destruct Cl as [C1 C2]. pose proof (step_inv d w e I C1) as S0.
    destruct (r_step w e) as [w1| |]; [|split; [discriminate|discriminate]|contradiction].
    destruct S0 as (d' & I' & L). apply (IH d'); auto.
    intros q r H. destruct L as [L|(q0 & L)]; rewrite L in H; [auto|].
    apply in_app_or in H as [H|[H|[]]]; [auto|]. now injection H as <- <-.
Qed.

Lemma tags_use w : tags w = map fst (in_use w).
Proof.
  unfold tags, in_use. rewrite !map_app, map_map. f_equal; [|f_equal].
  - apply map_ext. now intros [|].
  - induction (c_queue (w_client w)) as [|it q IH]; cbn; auto.
    rewrite map_app, IH. now destruct it.
  - destruct (c_send (w_client w)) as [|[]| |]; reflexivity.
Qed.

Lemma pops_contents s d n : ts_ok s d -> length (contents s) <= n -> pops n s = contents s.
Proof.
  revert s. induction n as [|n IH]; intros s K L; cbn.
  - destruct (contents s); [reflexivity|cbn in L; lia].
  - destruct (ts_pop s) as [s' [t|e]] eqn:E; destruct (pop_spec s d _ _ K E) as [K' C].
    + rewrite C in *. cbn in L. rewrite (IH s'); auto. lia.
    + now rewrite (proj1 C).
Qed.

(** In a run of clean events with a server that answers every request it has
    under its tag, in any order and at most once, the client does not panic and
    never closes the connection because of a tag; the reply to a message runs
    the callback of this message and no other reply runs a callback; no tag is
    held twice; while online every tag of the connection is held or free; and a
    message that awaits its reply has its callback registered. *)
Theorem C59_own : forall es, clean_run w_start es ->
  r_run w_start es <> Panic /\
  forall w, r_run w_start es = Ok w ->
    (forall q r, In (q, r) (w_log w) ->
       r = inl match q with OfMsg _ id => Some id | OfAsk _ _ _ => None end) /\
    NoDup (tags w) /\
    (c_online (w_client w) = true ->
       Permutation (tags w ++ pops (length (c_cb (w_client w))) (c_tags (w_client w)))
                   (map N.of_nat (seq 0 (length (c_cb (w_client w))))) /\
       forall t id, In (OfMsg t id) (w_open w) ->
         nth_error (c_cb (w_client w)) (N.to_nat t) = Some (Some id)).
Proof.
  intros es Cl. destruct (run_inv es 0 w_start start_inv Cl) as [P R]; [intros ? ? []|].
  split; auto. intros w E. destruct (R w E) as [[d I] G].
  split; [exact G|]. destruct I as (K & L & D & O & lost & Pm & Q).
  split.
  - rewrite tags_use. pose proof (Permutation_NoDup (Permutation_sym Pm) (all_tags_NoDup d)) as ND.
    unfold view in ND. rewrite map_app, <- app_assoc in ND.
    clear -ND. induction (map fst (in_use w)) as [|a l IH]; constructor; inversion ND; subst; auto.
    intros H. apply H1. apply in_or_app. auto.
  - intros On. destruct (Q On) as [-> F]. split.
    + rewrite (pops_contents _ d); auto; [|rewrite (contents_length _ d); auto; destruct K; lia].
      rewrite app_nil_r in Pm. unfold view in Pm. rewrite map_app, map_map, map_id in Pm.
      rewrite tags_use, L. exact Pm.
    + intros t id H. rewrite Forall_forall in F. apply (F (t, Some id)).
      unfold view, in_use. apply in_or_app. left. apply in_or_app. left.
      apply in_map_iff. exists (OfMsg t id). auto.
Qed.
Print Assumptions C59_own.

(** Three requests at once, answered out of order; a write that fails and is
    repeated; a second connection. *)
Definition own_run : list r_ev :=
  [ROnline 3; RSay 7; RSay 8; RAsk true 9; RBeat 10;
   RTake 2; RWriteAsk; RTake 0; RGetTag; RReg; RWrite false true; RReply 0;
   RTake 0; RGetTag; RReg; RWrite true true; RTake 0; RGetTag; RReg; RWrite true true;
   RIncoming 5; RReply 1; RTake 0; RWriteAsk; RReply 0; RReply 0; RTake 0; RWriteAsk;
   ROffline; ROnline 2; RSay 11; RTake 0; RGetTag; RReg; RWrite true true; RReply 0]%N.


Ltac step_clean := split; [vm_compute; repeat split; (reflexivity || discriminate)|
  let H := fresh in intros ? H; vm_compute in H; injection H as <-].

Example C59_own_case : clean_run w_start own_run /\
  match r_run w_start own_run with
  | Ok w => w_log w = [(OfAsk true 2 9, inl None); (OfMsg 0 8, inl (Some 8));
                       (OfMsg 2 7, inl (Some 7)); (OfAsk false 1 10, inl None);
                       (OfMsg 1 11, inl (Some 11))]%N
  | _ => False
  end.
Proof.
  split; [|vm_compute; reflexivity]. unfold own_run. do 36 step_clean. exact I.
Qed.

(** * Nothing is forgotten *)

(** Messages a run has queued, and where they can be. *)
Definition said (es : list r_ev) : list N :=
  flat_map (fun e => match e with RSay id => [id] | _ => [] end) es.
Definition waiting (w : world) : list N :=
  flat_map (fun it => match it with Msg id => [id] | _ => [] end) (c_queue (w_client w)) ++
  match c_send (w_client w) with
  | Held (Msg id) => [id] | Popped id _ => [id] | Ready id _ => [id] | _ => []
  end ++
  flat_map (fun q => match q with OfMsg _ id => [id] | _ => [] end) (w_open w).
Definition called (w : world) : list N :=
  flat_map (fun x => match x with (_, inl (Some id)) => [id] | _ => [] end) (w_log w).

(** A run in which every message has its ratchet, every ratchet is saved, and
    the connection is not lost while a message awaits its reply. *)
Fixpoint calm (w : world) (es : list r_ev) : Prop :=
  match es with
  | [] => True
  | e :: es' =>
      match e with
      | RDrop => False
      | RWrite true false => False
      | ROffline => forall t id, ~ In (OfMsg t id) (w_open w)
      | _ => True
      end /\ forall w', r_step w e = Ok w' -> calm w' es'
  end.

Ltac ncounts := unfold waiting, called; cbn [w_client w_open w_log c_queue c_send c_tags
    with_tags with_cb with_queue with_send with_online];
  rewrite ?flat_map_app; cbn [flat_map app];
  repeat (rewrite ?count_occ_app; cbn [count_occ]).

Lemma take_ids q i it x : nth_error q i = Some it ->
  count_occ N.eq_dec (flat_map (fun it => match it with Msg id => [id] | _ => [] end) q) x =
  count_occ N.eq_dec (match it with Msg id => [id] | _ => [] end) x +
  count_occ N.eq_dec (flat_map (fun it => match it with Msg id => [id] | _ => [] end) (remove_at i q)) x.
Proof.
  intros E. rewrite <- count_occ_app. apply (proj1 (Permutation_count_occ N.eq_dec _ _)).
  apply (Permutation_flat_map (fun it => match it with Msg id => [id] | _ => [] end)
    (remove_at_perm i q it E)).
Qed.

Lemma open_ids q i it x : nth_error q i = Some it ->
  count_occ N.eq_dec (flat_map (fun it => match it with OfMsg _ id => [id] | _ => [] end) q) x =
  count_occ N.eq_dec (match it with OfMsg _ id => [id] | _ => [] end) x +
  count_occ N.eq_dec (flat_map (fun it => match it with OfMsg _ id => [id] | _ => [] end) (remove_at i q)) x.
Proof.
  intros E. rewrite <- count_occ_app. apply (proj1 (Permutation_count_occ N.eq_dec _ _)).
  apply (Permutation_flat_map (fun it => match it with OfMsg _ id => [id] | _ => [] end)
    (remove_at_perm i q it E)).
Qed.

Lemma reply_keeps c a t c' f : handle_reply c a t = Goes c' f ->
  c_queue c' = c_queue c /\ c_send c' = c_send c.
Proof.
  unfold handle_reply. destruct a.
  - destruct (_ <? t)%N; [discriminate|]. destruct (nth_error _ _); [|discriminate].
    destruct (ts_push _ t) as [s [e|]]; [discriminate|]. intros [= <- <-]. auto.
  - destruct (ts_push _ t) as [s [e|]]; [discriminate|]. intros [= <- <-]. auto.
Qed.

Ltac fin := cbn; repeat match goal with |- context [N.eq_dec ?a ?b] => destruct (N.eq_dec a b) end; lia.

Lemma calm_step d w e w' x : r_inv d w -> clean w e -> calm w [e] -> r_step w e = Ok w' ->
  count_occ N.eq_dec (waiting w' ++ called w') x =
  count_occ N.eq_dec (said [e]) x + count_occ N.eq_dec (waiting w ++ called w) x.
Proof.
  intros I Cl [Ca _] E. pose proof (step_inv d w e I Cl) as SI. rewrite E in SI.
  destruct SI as (_ & _ & SL). pose proof I as (K & L & D & O & _).
  destruct e as [d'| |id|ack id|id|t|i| | | | |sent saved| |i]; cbn [r_step] in E.
  - destruct (c_online (w_client w)) eqn:On; [discriminate|].
    destruct (ts_new (Z.of_nat d')) as [s| |]; try discriminate. injection E as <-.
    ncounts. rewrite (O eq_refl). fin.
  - destruct (c_online (w_client w)); [|discriminate]. injection E as <-. ncounts.
    assert (Z : flat_map (fun q => match q with OfMsg _ id => [id] | _ => [] end) (w_open w) = []).
    { clear -Ca. induction (w_open w) as [|[t id|a t id] l IH]; cbn; auto.
      - exfalso. apply (Ca t id). now left.
      - apply IH. intros t0 id0 H. apply (Ca t0 id0). now right. }
    rewrite Z. fin.
  - injection E as <-. ncounts. fin.
  - destruct (ts_pop _) as [s [t|]]; [|discriminate]. injection E as <-. ncounts. fin.
  - destruct (ts_pop _) as [s [t|]]; injection E as <-; ncounts; fin.
  - injection E as <-. ncounts. fin.
  - destruct (c_send (w_client w)) eqn:S0; try discriminate.
    destruct (nth_error (c_queue (w_client w)) i) as [it|] eqn:En; [|discriminate].
    injection E as <-. ncounts. rewrite S0, (take_ids _ _ _ x En). destruct it; fin.
  - destruct (c_send (w_client w)) as [|it| |] eqn:S0; try discriminate. injection E as <-.
    ncounts. rewrite S0. destruct it as [id| |]; fin.
  - destruct Ca.
  - destruct (c_send (w_client w)) as [|[id| |]| |] eqn:S0; try discriminate.
    destruct (ts_pop _) as [s [t|]]; [|discriminate]. injection E as <-. ncounts. rewrite S0. fin.
  - destruct (c_send (w_client w)) as [| |id t|] eqn:S0; try discriminate.
    destruct (_ <? _); [|discriminate]. injection E as <-. ncounts. rewrite S0. fin.
  - destruct (c_send (w_client w)) as [| | |id t] eqn:S0; try discriminate.
    destruct sent.
    + destruct (c_online (w_client w)); [|discriminate]. destruct saved; [|destruct Ca].
      injection E as <-. ncounts. rewrite S0. fin.
    + destruct (_ <? _); [|discriminate]. injection E as <-. ncounts. rewrite S0. fin.
  - destruct (c_online (w_client w)); [|discriminate].
    destruct (c_send (w_client w)) as [|[|ack t id|t]| |] eqn:S0; try discriminate;
      injection E as <-; ncounts; rewrite S0; fin.
  - destruct (nth_error (w_open w) i) as [q|] eqn:En; [|discriminate].
    destruct (match q with OfMsg t _ => (true, t) | OfAsk a t _ => (a, t) end) as [a t].
    destruct (handle_reply (w_client w) a t) as [c' f|c'|] eqn:H; [|exfalso|discriminate].
    + destruct (reply_keeps _ _ _ _ _ H) as [Q1 Q2]. injection E as <-.
      assert (F : f = owed q).
      { destruct SL as [SL|(q0 & SL)]; cbn in SL.
        - apply (f_equal (@length _)) in SL. rewrite app_length in SL. cbn in SL. lia.
        - apply app_inj_tail in SL as [_ SL]. injection SL as <- SL. exact SL. }
      subst f. ncounts. rewrite Q1, Q2, (open_ids _ _ _ x En).
      destruct q; fin.
    + injection E as <-. destruct SL as [SL|(q0 & SL)]; cbn in SL.
      * apply (f_equal (@length _)) in SL. rewrite app_length in SL. cbn in SL. lia.
      * apply app_inj_tail in SL as [_ SL]. discriminate.
Qed.

(** In such a run every message queued so far waits in the client, awaits its
    reply at the server, or has had its callback run, exactly as often as it was
    queued: no callback runs twice and none is forgotten. *)
Theorem C59_all : forall es w, clean_run w_start es -> calm w_start es ->
  r_run w_start es = Ok w -> Permutation (said es) (waiting w ++ called w).
Proof.
  assert (G : forall es d w w' x, r_inv d w -> clean_run w es -> calm w es -> r_run w es = Ok w' ->
    count_occ N.eq_dec (waiting w' ++ called w') x =
    count_occ N.eq_dec (said es) x + count_occ N.eq_dec (waiting w ++ called w) x).
  { induction es as [|e es IH]; intros d w w' x I C A R; cbn in R.
    - injection R as <-. reflexivity.
    - destruct C as [C1 C2], A as [A1 A2]. destruct (r_step w e) as [w1| |] eqn:E; try discriminate.
      pose proof (step_inv d w e I C1) as SI. rewrite E in SI. destruct SI as (d' & I' & _).
      rewrite (IH d' w1 w' x I' (C2 _ eq_refl) (A2 _ eq_refl) R).
      rewrite (calm_step d w e w1 x I C1 (conj A1 (fun _ _ => Logic.I)) E).
      unfold said. cbn. rewrite app_nil_r, !count_occ_app. lia. }
  intros es w C A R. apply (Permutation_count_occ N.eq_dec). intros x.
  rewrite (G es 0 w_start w x start_inv C A R). cbn. lia.
Qed.
Print Assumptions C59_all.

Ltac step_calm := split; [vm_compute; first [exact I|intros ? ? []]|
  let H := fresh in intros ? H; vm_compute in H; injection H as <-].

Example C59_all_case : calm w_start own_run /\ said own_run = [7; 8; 11]%N /\
  match r_run w_start own_run with
  | Ok w => waiting w = [] /\ called w = [8; 7; 11]%N
  | _ => False
  end.
Proof.
  split; [unfold own_run; do 36 step_calm; exact I|]. vm_compute. auto.
Qed.

(** The callback runs when the server acknowledges, not when the other side has
    the message, and a message whose reply is lost with the connection is
    neither sent again nor reported: its callback never runs. *)
Theorem C59_reply_lost_refuted : exists es w,
  clean_run w_start es /\ r_run w_start es = Ok w /\
  said es = [7%N] /\ waiting w = [] /\ called w = [] /\ c_online (w_client w) = true.
Proof.
  exists [ROnline 2; RSay 7; RTake 0; RGetTag; RReg; RWrite true true; ROffline; ROnline 2]%N.
  eexists. split; [do 8 step_clean; exact I|]. split; [vm_compute; reflexivity|]. vm_compute. auto.
Qed.
Print Assumptions C59_reply_lost_refuted.

(** So is a message to somebody whose ratchet cannot be read. *)
Theorem C59_no_ratchet_refuted : exists es w,
  clean_run w_start es /\ ~ In ROffline es /\ r_run w_start es = Ok w /\
  said es = [7%N] /\ waiting w = [] /\ called w = [].
Proof.
  exists [ROnline 2; RSay 7; RTake 0; RDrop]%N.
  eexists. split; [do 4 step_clean; exact I|].
  split; [intros H; repeat (destruct H as [H|H]; [discriminate|]); exact H|].
  split; [vm_compute; reflexivity|]. vm_compute. auto.
Qed.
Print Assumptions C59_no_ratchet_refuted.

(** * What the premises are needed for *)

(** A request queued when the connection was lost keeps its tag.  In the next
    connection the reply to it runs the callback of a message with the same tag
    that the server has not answered, and the reply to this message ends the
    connection. *)
Theorem C59_stale_refuted : exists es1 es2 w1 w2,
  (forall id, ~ In (RBeat id) (es1 ++ es2)) /\
  r_run w_start es1 = Ok w1 /\
  In (OfAsk true 1 9, inl (Some 7))%N (w_log w1) /\ In (OfMsg 1 7)%N (w_open w1) /\
  r_run w1 es2 = Ok w2 /\
  In (OfMsg 1 7, inr tt)%N (w_log w2) /\ c_online (w_client w2) = false.
Proof.
  exists [ROnline 2; RAsk true 9; ROffline; ROnline 2; RSay 7;
          RTake 0; RWriteAsk; RTake 0; RGetTag; RReg; RWrite true true; RReply 0]%N,
         [RReply 0].
  eexists. eexists. split.
  { intros id H. cbn in H. repeat (destruct H as [H|H]; [discriminate|]). exact H. }
  split; [vm_compute; reflexivity|]. vm_compute. auto 10.
Qed.
Print Assumptions C59_stale_refuted.

(** A heartbeat that finds no tag goes out with tag 0, whoever holds it: here
    the reply to a message runs the callback of another one. *)
Theorem C59_heartbeat_refuted : exists es w,
  (forall d, In (ROnline d) es -> d = 1) /\ ~ In ROffline es /\
  r_run w_start es = Ok w /\
  In (OfMsg 0 7, inl (Some 8))%N (w_log w) /\ In (OfMsg 0 8)%N (w_open w).
Proof.
  exists [ROnline 1; RSay 7; RTake 0; RGetTag; RReg; RWrite true true; RBeat 9;
          RTake 0; RWriteAsk; RReply 1; RSay 8; RTake 0; RGetTag; RReg; RWrite true true; RReply 0]%N.
  eexists. split.
  { intros d H. cbn in H. repeat (destruct H as [H|H]; [try discriminate; now injection H|]). easy. }
  split.
  { intros H. cbn in H. repeat (destruct H as [H|H]; [discriminate|]). exact H. }
  split; [vm_compute; reflexivity|]. vm_compute. auto.
Qed.
Print Assumptions C59_heartbeat_refuted.

(** An acknowledgement makes the client panic exactly if its tag is the number
    of tags of the connection. *)
Theorem C59_panic : forall c t, (N.of_nat (length (c_cb c)) < 2 ^ 32)%N ->
  (handle_reply c true t = Crashes <-> t = N.of_nat (length (c_cb c))).
Proof.
  intros c t L. unfold handle_reply. unfold u32. rewrite N.mod_small by lia.
  destruct (N.ltb_spec (N.of_nat (length (c_cb c))) t) as [H|H].
  - split; [discriminate|lia].
  - destruct (nth_error (c_cb c) (N.to_nat t)) eqn:E.
    + assert (N.to_nat t < length (c_cb c)) by (apply nth_error_Some; congruence).
      destruct (ts_push _ t) as [s [e|]]; split; try discriminate; lia.
    + apply nth_error_None in E. split; [lia|reflexivity].
Qed.
Print Assumptions C59_panic.

Example C59_panic_case :
  match r_run w_start [ROnline 32] with
  | Ok w => handle_reply (w_client w) true 32%N = Crashes /\
            handle_reply (w_client w) true 33%N = Closes (with_online (w_client w) false)
  | _ => False
  end.
Proof. vm_compute. auto. Qed.

(** Replies that carry no callback are not checked at all: while a tag is in
    use, any number comes back as a free tag, and the next message takes it and
    makes the client panic if it is none of the connection's. *)
Theorem C59_forged_refuted : forall w t id,
  ts_ok (c_tags (w_client w)) (length (c_cb (w_client w))) ->
  ts_at (c_tags (w_client w)) < length (c_cb (w_client w)) ->
  (N.of_nat (length (c_cb (w_client w))) <= t)%N ->
  c_send (w_client w) = Held (Msg id) ->
  exists c', handle_reply (w_client w) false t = Goes c' None /\
    r_run {| w_client := c'; w_open := w_open w; w_log := w_log w |} [RGetTag; RReg] = Panic.
Proof.
  intros w t id K A T S0.
  destruct (push_spec (c_tags (w_client w)) _ t K) as (s' & E & K' & C).
  { rewrite (contents_length _ _ K). exact A. }
  exists (with_tags (w_client w) s'). unfold handle_reply. rewrite E. split; auto.
  cbn [r_run r_step w_client c_send with_tags c_tags]. rewrite S0.
  destruct (ts_pop s') as [s2 [t2|e]] eqn:P; destruct (pop_spec _ _ _ _ K' P) as [K2 C2].
  - rewrite C in C2. injection C2 as <- C2.
    cbn [r_run r_step w_client c_send with_send with_tags c_cb].
    destruct (Nat.ltb_spec (N.to_nat t) (length (c_cb (w_client w)))); [lia|reflexivity].
  - destruct C2 as [C2 _]. congruence.
Qed.
Print Assumptions C59_forged_refuted.

Example C59_forged_case : exists w,
  r_run w_start [ROnline 3; RBeat 1; RSay 7; RTake 0; RWriteAsk; RTake 0]%N = Ok w /\
  ts_ok (c_tags (w_client w)) (length (c_cb (w_client w))) /\
  ts_at (c_tags (w_client w)) < length (c_cb (w_client w)) /\
  (N.of_nat (length (c_cb (w_client w))) <= 1000)%N /\
  c_send (w_client w) = Held (Msg 7%N).
Proof.
  eexists. split; [vm_compute; reflexivity|]. cbn. unfold ts_ok. cbn. repeat split; lia.
Qed.
