(** Proofs about conversations in groups. *)
From Verif Require Import Base XdrModel RpcModel CrpcModel UiModel GroupModel GroupProofs GroupProps TalkModel.
From Coq Require Import Lia.
Local Open Scope N_scope.

(** [l] with some of its elements left out. *)
Inductive sub {A} : list A -> list A -> Prop :=
| Sub_nil : sub [] []
| Sub_skip x l m : sub l m -> sub l (x :: m)
| Sub_keep x l m : sub l m -> sub (x :: l) (x :: m).

Lemma sub_refl {A} (l : list A) : sub l l.
Proof. induction l; [constructor|]. now apply Sub_keep. Qed.
Lemma sub_nil {A} (l : list A) : sub [] l.
Proof. induction l; [constructor|]. now apply Sub_skip. Qed.
Lemma sub_app {A} (a b c d : list A) : sub a b -> sub c d -> sub (a ++ c) (b ++ d).
Proof. intros H K. induction H; cbn; auto; [now apply Sub_skip|now apply Sub_keep]. Qed.
Lemma sub_trans {A} (a b c : list A) : sub a b -> sub b c -> sub a c.
Proof.
  intros H K. revert a H. induction K; intros a H.
  - auto.
  - apply Sub_skip. auto.
  - inversion H; subst; [apply Sub_skip|apply Sub_keep]; auto.
Qed.
Lemma sub_drop {A} (x : A) a b : sub (a ++ b) (a ++ x :: b).
Proof. apply sub_app; [apply sub_refl|]. apply Sub_skip, sub_refl. Qed.

(** How often [x] is in a list. *)
Fixpoint times (x : bytes) (l : list bytes) : nat :=
  match l with [] => O | y :: r => if eqb y x then S (times x r) else times x r end.

Lemma times_in x l : ~ In x l -> times x l = O.
Proof. induction l as [|y l IH]; cbn; auto. intros N. destruct (eqb_spec y x); [exfalso; auto|auto]. Qed.
Lemma times_once x l : NoDup l -> In x l -> times x l = 1%nat.
Proof.
  induction 1 as [|y l N D IH]; cbn; [intros []|]. intros [->|I].
  - rewrite eqb_refl. now rewrite times_in.
  - destruct (eqb_spec y x); [congruence|auto].
Qed.

(** What [s] said in the group [n] with [r] on its list, once for every time that
    the list names [r]. *)
Definition meant (r n s : bytes) (l : list saying) : list bytes :=
  flat_map (fun y => if eqb (y_by y) s && eqb (y_group y) n then repeat (y_text y) (times r (y_members y)) else []) l.

(** What [r] was shown in its group [n] as said by [s]. *)
Definition heard (r n s : bytes) (l : list showing) : list bytes :=
  map w_text (filter (fun w => eqb (w_to w) r && eqb (w_group w) n && eqb (w_by w) s) l).

(** What is shown is what was said, but for the colour of the reader's nick. *)
Definition colours (me : self) (m t : bytes) : Prop :=
  t = m \/ exists a w b, m = a ++ w ++ b /\ t = a ++ i_on me ++ w ++ i_off me ++ b.

(** The messages of the group on the way. *)
Definition texts (n : bytes) (q : list crpc_payload) : list bytes :=
  flat_map (fun p => match p with GMessage gm => if eqb (GroupMessage_Name gm) n then [GroupMessage_Message gm] else [] | _ => [] end) q.
Definition coming (r n s : bytes) (t : world) : list bytes := texts n (t_channel t s r).

Lemma meant_app r n s a b : meant r n s (a ++ b) = meant r n s a ++ meant r n s b.
Proof. apply flat_map_app. Qed.
Lemma heard_app r n s a b : heard r n s (a ++ b) = heard r n s a ++ heard r n s b.
Proof. unfold heard. now rewrite filter_app, map_app. Qed.
Lemma texts_app n a b : texts n (a ++ b) = texts n a ++ texts n b.
Proof. apply flat_map_app. Qed.

(** Only speaking sends messages of a group. *)
Definition silent (sent : list (bytes * crpc_payload)) : Prop := forall x gm, ~ In (x, GMessage gm) sent.

Lemma silent_nil : silent [].
Proof. intros x gm []. Qed.
Lemma silent_map {A} (f : A -> bytes) (g : A -> crpc_payload) l :
  (forall a gm, g a <> GMessage gm) -> silent (map (fun a => (f a, g a)) l).
Proof. intros H x gm I. cbn in I. apply in_map_iff in I as (a & E & _). injection E as _ E. eapply H; eauto. Qed.
Lemma silent_one y p : (forall gm, p <> GMessage gm) -> silent [(y, p)].
Proof. intros H x gm [E|[]]. injection E as _ E. eapply H; eauto. Qed.

Ltac quietly := solve [ apply silent_nil | apply silent_one; discriminate | apply silent_map; discriminate ].
Ltac cases H :=
  repeat match type of H with
  | context[match ?x with _ => _ end] => destruct x
  | context[let (_, _) := ?x in _] => destruct x
  | exists _, _ => destruct H as [? H]
  end.

Lemma only_speaking s c e o c' : gstep s c e o c' -> (forall n m k, e <> CMessage n m k) -> silent (o_sent o).
Proof.
  intros H N. destruct e; cbn [gstep] in H.
  - unfold gc_new in H. cases H; apply pair_equal_spec in H as [-> _]; quietly.
  - unfold gc_invite in H. cases H; try (destruct H as [-> _]; quietly); destruct H as (_ & _ & ->); quietly.
  - unfold gc_join in H. destruct (mhas _ _); [destruct H as [-> _]; quietly|].
    destruct H as (r & _ & H). destruct r as [from|]; [|destruct H as [-> _]; quietly].
    destruct (save_group _ _ _) as [c1 []]; cbn [negb] in H.
    + destruct H as (b & f' & _ & _ & ->). quietly.
    + destruct H as [-> _]. quietly.
  - unfold gc_kick in H. cases H; apply pair_equal_spec in H as [-> _]; quietly.
  - destruct H as [-> _]. quietly.
  - destruct H as [-> _]. unfold gc_part. destruct (mget _ _); [|quietly]. destruct (admin _); [|quietly]. destruct (eqb _ _); quietly.
  - destruct (delete_group _ _ _). destruct H as [-> _]. quietly.
  - unfold gc_kill in H. cases H; apply pair_equal_spec in H as [-> _]; quietly.
  - exfalso. eapply N; reflexivity.
  - destruct H as [-> _]. quietly.
  - unfold handle_join in H. destruct (mget _ _); [|destruct H as [-> _]; quietly].
    destruct (GroupList_Members _); [destruct H as [-> _]; quietly|].
    destruct (negb _); [destruct H as [-> _]; quietly|].
    destruct H as (ok & f' & _ & H). cbn zeta in H.
    destruct ok; cbn [negb] in H; [|destruct H as [-> _]; quietly].
    destruct (known from); cbn [negb] in H; [|destruct H as [-> _]; quietly].
    destruct (mem _ _); [destruct H as [-> _]; quietly|].
    destruct (save_group _ _ _) as [c2 []]; destruct H as [-> _]; quietly.
  - unfold handle_part in H. cases H; apply pair_equal_spec in H as [-> _]; quietly.
  - unfold handle_kick in H. cases H; apply pair_equal_spec in H as [-> _]; quietly.
  - unfold handle_kill in H. cases H; apply pair_equal_spec in H as [-> _]; quietly.
  - unfold handle_list in H. apply pair_equal_spec in H as [-> _]; quietly.
  - unfold handle_list in H. apply pair_equal_spec in H as [-> _]; quietly.
  - unfold handle_message in H. cases H; apply pair_equal_spec in H as [-> _]; quietly.
  - destruct H as [-> _]. quietly.
Qed.

Lemma silent_texts n v sent : silent sent -> texts n (map snd (filter (fun s => eqb (fst s) v) sent)) = [].
Proof.
  intros Q. induction sent as [|[x p] l IH]; [reflexivity|].
  assert (Q' : silent l) by (intros y gm I; apply (Q y gm); now right).
  cbn [filter map fst]. destruct (eqb x v); [|auto]. cbn [map snd]. unfold texts in *. cbn [flat_map]. rewrite IH by auto.
  destruct p; try reflexivity. exfalso. eapply Q. left. reflexivity.
Qed.

(** What speaking sends to [v]. *)
Lemma spoken_texts s c k msg mode n v :
  texts n (map snd (filter (fun x => eqb (fst x) v) (o_sent (gc_message (i_id s) c k msg mode)))) =
  match mget (c_groups c) k with
  | Some g => if eqb k n && negb (eqb v (i_id s)) then repeat msg (times v (GroupList_Members g)) else []
  | None => []
  end.
Proof.
  unfold gc_message. destruct (mget (c_groups c) k) as [g|]; [|reflexivity]. cbn [o_sent].
  generalize (GroupList_Generation g). intros gen. induction (GroupList_Members g) as [|m l IH].
  - cbn. now destruct (eqb k n && negb (eqb v (i_id s))).
  - cbn [filter times]. destruct (eqb_spec m (i_id s)) as [->|Nm]; cbn [negb].
    + rewrite IH. destruct (eqb_spec (i_id s) v) as [<-|]; [|reflexivity]. rewrite eqb_refl. cbn [negb]. now rewrite andb_false_r.
    + cbn [map filter fst]. destruct (eqb_spec m v) as [->|]; [|exact IH].
      cbn [map snd]. unfold texts in *. cbn [flat_map GroupMessage_Name GroupMessage_Message]. rewrite IH.
      destruct (eqb_spec v (i_id s)); [congruence|]. destruct (eqb k n); reflexivity.
Qed.

Section Steps.
Variables (who : bytes -> self) (honest : bytes -> bool) (s r n : bytes).
Hypothesis ids : forall x, i_id (who x) = x.
Hypothesis hs : honest s = true.

(** What a step means for what [s] says to [r] in the group [n]. *)
Inductive effect (t : world) (l : label) (t' : world) : Prop :=
| E_none : meant r n s (t_said t') = meant r n s (t_said t) -> heard r n s (t_shown t') = heard r n s (t_shown t) ->
    coming r n s t' = coming r n s t -> effect t l t'
| E_said new sent : meant r n s (t_said t') = meant r n s (t_said t) ++ new ->
    heard r n s (t_shown t') = heard r n s (t_shown t) ->
    coming r n s t' = coming r n s t ++ sent -> (sent = new \/ s = r /\ sent = []) ->
    (forall g, mget (c_groups (t_clients t s)) n = Some g -> ~ In r (GroupList_Members g) -> new = []) ->
    (mget (c_groups (t_clients t s)) n = None -> new = []) -> effect t l t'
| E_shown m x : coming r n s t = m :: coming r n s t' -> meant r n s (t_said t') = meant r n s (t_said t) ->
    heard r n s (t_shown t') = heard r n s (t_shown t) ++ [x] -> colours (who r) m x -> effect t l t'
| E_ignored m gm : coming r n s t = m :: coming r n s t' -> meant r n s (t_said t') = meant r n s (t_said t) ->
    heard r n s (t_shown t') = heard r n s (t_shown t) ->
    l = Arrives s r (GMessage gm) -> GroupMessage_Name gm = n ->
    (forall g, mget (c_groups (t_clients t r)) n = Some g -> In s (GroupList_Members g) ->
       highlight (i_upper (who r)) (i_on (who r)) (i_off (who r)) (i_nick (who r)) (GroupMessage_Mode gm) (GroupMessage_Message gm) = None) ->
    effect t l t'
| E_lost a m b gm : coming r n s t = a ++ m :: b -> coming r n s t' = a ++ b -> meant r n s (t_said t') = meant r n s (t_said t) ->
    heard r n s (t_shown t') = heard r n s (t_shown t) ->
    l = Lost s r (GMessage gm) -> GroupMessage_Name gm = n -> effect t l t'.

Lemma not_s x : honest x = false -> s <> x.
Proof. intros H ->. congruence. Qed.

Lemma step_effect t l t' : happens who honest t l t' -> effect t l t'.
Proof.
  intros H. destruct H as [x e o c' Hx Ow G|x y p q e o c' Hy Ch Co G|x y p q Hy Ch Ab|x y a p b Ch|x y p Hx].
  - (* own *)
    destruct (eqb_spec x s) as [->|Ns].
    + destruct e; try discriminate Ow;
        try (apply E_none; cbn [t_said t_shown speaks]; [now rewrite app_nil_r|reflexivity|];
             unfold coming; cbn [t_channel]; unfold post; rewrite eqb_refl, texts_app,
               (silent_texts n r _ (only_speaking _ _ _ _ _ G ltac:(discriminate))); apply app_nil_r).
      destruct G as [-> ->]. cbn [speaks].
      eapply (E_said _ _ _ (meant r n s (match mget (c_groups (t_clients t s)) n0 with Some g => [mkSaying s n0 msg mode (GroupList_Members g)] | None => [] end))
        (texts n (map snd (filter (fun x => eqb (fst x) r) (o_sent (gc_message (i_id (who s)) (t_clients t s) n0 msg mode)))))).
      * cbn [t_said]. apply meant_app.
      * reflexivity.
      * unfold coming. cbn [t_channel]. unfold post. now rewrite eqb_refl, texts_app.
      * rewrite spoken_texts, ids. destruct (mget (c_groups (t_clients t s)) n0) as [g|]; [|left; reflexivity].
        unfold meant. cbn [flat_map y_by y_group y_text y_members]. rewrite eqb_refl, app_nil_r. cbn [andb].
        destruct (eqb_spec r s) as [->|]; cbn [negb]; [right; now rewrite andb_false_r|left; now rewrite andb_true_r].
      * intros g E Ni. unfold meant. destruct (mget (c_groups (t_clients t s)) n0) as [g0|] eqn:G0; [|reflexivity].
        cbn [flat_map y_by y_group y_text y_members]. destruct (eqb_spec n0 n) as [->|]; [|now rewrite andb_false_r].
        rewrite G0 in E. injection E as ->. rewrite times_in by auto. now destruct (eqb s s && true).
      * intros E. unfold meant. destruct (mget (c_groups (t_clients t s)) n0) as [g0|] eqn:G0; [|reflexivity].
        cbn [flat_map y_by y_group y_text y_members]. destruct (eqb_spec n0 n) as [->|]; [congruence|now rewrite andb_false_r].
    + apply E_none; cbn [t_said t_shown]; [|reflexivity|].
      * rewrite meant_app. replace (meant r n s (speaks x (t_clients t x) e)) with (@nil bytes); [apply app_nil_r|].
        destruct e; try reflexivity. cbn [speaks]. destruct (mget _ _); [|reflexivity]. unfold meant. cbn [flat_map y_by].
        destruct (eqb_spec x s); [congruence|reflexivity].
      * unfold coming. cbn [t_channel]. unfold post. destruct (eqb_spec s x); [congruence|reflexivity].
  - (* arrives *)
    assert (Sil : silent (o_sent o)).
    { eapply only_speaking; [exact G|]. intros ? ? ? ->. inversion Co. }
    assert (Com : forall f, texts n (post f y (o_sent o) s r) = texts n (f s r)).
    { intros f. unfold post. destruct (eqb s y); [|reflexivity]. now rewrite texts_app, (silent_texts _ _ _ Sil), app_nil_r. }
    destruct (eqb s x && eqb r y) eqn:Me.
    + apply andb_true_iff in Me as [E1 E2]. destruct (eqb_spec s x) as [<-|]; [|discriminate]. destruct (eqb_spec r y) as [<-|]; [|discriminate].
      assert (C' : coming r n s (mkWorld (put (t_clients t) r c') (post (put2 (t_channel t) s r q) r (o_sent o)) (t_said t) (t_shown t ++ shows r s p o)) = texts n q).
      { unfold coming. cbn [t_channel]. rewrite Com. unfold put2. now rewrite !eqb_refl. }
      destruct p; try (apply E_none; [reflexivity|cbn [t_shown shows]; now rewrite app_nil_r|rewrite C'; unfold coming; now rewrite Ch]).
      destruct (eqb_spec (GroupMessage_Name m) n) as [En|Nn].
      2:{ apply E_none; [reflexivity| |rewrite C'; unfold coming; rewrite Ch; cbn; destruct (eqb_spec (GroupMessage_Name m) n); [congruence|reflexivity]].
          cbn [t_shown]. rewrite heard_app. replace (heard r n s (shows r s (GMessage m) o)) with (@nil bytes); [apply app_nil_r|]. cbn [shows].
          destruct (o_shown o); [|reflexivity]. unfold heard. cbn. destruct (eqb_spec (GroupMessage_Name m) n); [congruence|]. now rewrite andb_false_r. }
      inversion Co; subst. destruct (C35_members_only _ _ _ _ _ _ G) as (_ & _ & _ & Sh & _ & Col).
      assert (CC : coming r n s t = GroupMessage_Message m :: texts n q).
      { unfold coming. rewrite Ch. cbn. now rewrite En, eqb_refl. }
      destruct (o_shown o) as [x|] eqn:Os.
      * apply (E_shown _ _ _ (GroupMessage_Message m) x).
        -- rewrite C'. exact CC.
        -- reflexivity.
        -- cbn [t_shown shows]. rewrite Os, heard_app. f_equal. unfold heard. cbn. now rewrite En, !eqb_refl.
        -- now apply Col.
      * apply (E_ignored _ _ _ (GroupMessage_Message m) m).
        -- rewrite C'. exact CC.
        -- reflexivity.
        -- cbn [t_shown shows]. now rewrite Os, app_nil_r.
        -- reflexivity.
        -- exact En.
        -- intros g Gg I. cbn [gstep] in G. unfold handle_message in G. rewrite En, Gg, (proj2 (mem_In _ _) I) in G.
           destruct (highlight _ _ _ _ _ _); [|reflexivity]. apply pair_equal_spec in G as [-> _]. discriminate.
    + assert (Cn : coming r n s (mkWorld (put (t_clients t) y c') (post (put2 (t_channel t) x y q) y (o_sent o)) (t_said t) (t_shown t ++ shows y x p o)) = coming r n s t).
      { unfold coming. cbn [t_channel]. rewrite Com. unfold put2. now rewrite Me. }
      apply E_none; [reflexivity| |exact Cn]. cbn [t_shown]. rewrite heard_app.
      replace (heard r n s (shows y x p o)) with (@nil bytes); [apply app_nil_r|].
      unfold shows. destruct p; try reflexivity. destruct (o_shown o); [|reflexivity]. unfold heard. cbn [filter w_to w_group w_by].
      destruct (eqb_spec y r) as [->|]; [|reflexivity]. destruct (eqb_spec x s) as [->|]; [|now rewrite andb_false_r].
      rewrite !eqb_refl in Me. discriminate.
  - (* other *)
    apply E_none; [reflexivity|reflexivity|]. unfold coming. cbn [t_channel]. unfold put2.
    destruct (eqb_spec s x) as [<-|]; [|reflexivity]. destruct (eqb_spec r y) as [<-|]; [|reflexivity]. cbn [andb].
    rewrite Ch. destruct p; try discriminate Ab; reflexivity.
  - (* lost *)
    destruct (eqb s x && eqb r y) eqn:Me.
    + apply andb_true_iff in Me as [E1 E2]. destruct (eqb_spec s x) as [<-|]; [|discriminate]. destruct (eqb_spec r y) as [<-|]; [|discriminate].
      assert (C' : coming r n s (mkWorld (t_clients t) (put2 (t_channel t) s r (a ++ b)) (t_said t) (t_shown t)) = texts n a ++ texts n b).
      { unfold coming. cbn [t_channel]. unfold put2. rewrite !eqb_refl. apply texts_app. }
      assert (C0 : coming r n s t = texts n a ++ texts n [p] ++ texts n b).
      { unfold coming. rewrite Ch, texts_app. f_equal. change (p :: b) with ([p] ++ b). apply texts_app. }
      destruct p; try (apply E_none; [reflexivity|reflexivity|now rewrite C', C0]).
      destruct (eqb_spec (GroupMessage_Name m) n) as [En|Nn].
      * apply (E_lost _ _ _ (texts n a) (GroupMessage_Message m) (texts n b) m); auto.
        rewrite C0. f_equal. cbn. rewrite En, eqb_refl. reflexivity.
      * apply E_none; [reflexivity|reflexivity|]. rewrite C', C0. f_equal. cbn. destruct (eqb_spec (GroupMessage_Name m) n); [congruence|reflexivity].
    + apply E_none; [reflexivity|reflexivity|]. unfold coming. cbn [t_channel]. unfold put2. now rewrite Me.
  - (* forged *)
    apply E_none; [reflexivity|reflexivity|]. unfold coming. cbn [t_channel]. unfold put2.
    destruct (eqb_spec s x); [congruence|reflexivity].
Qed.

(** ** In general *)
Definition heard_of (t : world) : Prop :=
  exists l, sub (l ++ coming r n s t) (meant r n s (t_said t)) /\ Forall2 (colours (who r)) l (heard r n s (t_shown t)).

Lemma general t0 t P : heard_of t0 -> goes who honest P t0 t -> heard_of t.
Proof.
  intros Z H. induction H as [|t l t' H IH _ St]; [exact Z|]. destruct IH as (k & Su & F).
  destruct (step_effect _ _ _ St) as [Em Eh Ec|new sent Em Eh Ec Or _ _|m x Ec Em Eh Co|m gm Ec Em Eh _ _ _|a m b gm Ec Ec' Em Eh _ _].
  - exists k. now rewrite Em, Eh, Ec.
  - exists k. rewrite Em, Eh, Ec. split; [|exact F]. rewrite app_assoc. apply sub_app; [exact Su|].
    destruct Or as [->|[_ ->]]; [apply sub_refl|apply sub_nil].
  - exists (k ++ [m]). rewrite Em, Eh. split; [|apply Forall2_app; auto].
    rewrite <- app_assoc. cbn [app]. now rewrite <- Ec.
  - exists k. rewrite Em, Eh. split; [|exact F]. eapply sub_trans; [|exact Su]. apply sub_app; [apply sub_refl|]. rewrite Ec. apply Sub_skip, sub_refl.
  - exists k. rewrite Em, Eh, Ec'. split; [|exact F]. eapply sub_trans; [|exact Su]. apply sub_app; [apply sub_refl|]. rewrite Ec. apply sub_drop.
Qed.

(** ** If nothing goes wrong *)
Definition smooth (t : world) (l : label) : Prop :=
  match l with
  | Lost x y (GMessage gm) => ~ (x = s /\ y = r /\ GroupMessage_Name gm = n)
  | Arrives x y (GMessage gm) => x = s -> y = r -> GroupMessage_Name gm = n ->
      (exists g, mget (c_groups (t_clients t r)) n = Some g /\ In s (GroupList_Members g)) /\
      highlight (i_upper (who r)) (i_on (who r)) (i_off (who r)) (i_nick (who r)) (GroupMessage_Mode gm) (GroupMessage_Message gm) <> None
  | _ => True
  end.

Definition all_of (t : world) : Prop :=
  exists l, l ++ coming r n s t = meant r n s (t_said t) /\ Forall2 (colours (who r)) l (heard r n s (t_shown t)).

Lemma complete t0 t : s <> r -> all_of t0 -> goes who honest smooth t0 t -> all_of t.
Proof.
  intros Nsr Z H. induction H as [|t l t' H IH Pm St]; [exact Z|]. destruct IH as (k & Su & F).
  destruct (step_effect _ _ _ St) as [Em Eh Ec|new sent Em Eh Ec Or _ _|m x Ec Em Eh Co|m gm Ec Em Eh -> En Hi|a m b gm Ec Ec' Em Eh -> En].
  - exists k. now rewrite Em, Eh, Ec.
  - exists k. rewrite Em, Eh, Ec. split; [|exact F]. rewrite app_assoc, Su. destruct Or as [->|[E _]]; [reflexivity|congruence].
  - exists (k ++ [m]). rewrite Em, Eh. split; [|apply Forall2_app; auto]. rewrite <- app_assoc. cbn [app]. now rewrite <- Ec.
  - cbn in Pm. destruct (Pm eq_refl eq_refl En) as ((g & Gg & I) & Nh). exfalso. apply Nh. eauto.
  - cbn in Pm. exfalso. apply Pm. auto.
Qed.

(** ** Off the list *)
Definition off_list (t : world) (_ : label) : Prop :=
  forall g, mget (c_groups (t_clients t s)) n = Some g -> ~ In r (GroupList_Members g).

Lemma outside t0 t : coming r n s t0 = [] -> goes who honest off_list t0 t ->
  coming r n s t = [] /\ heard r n s (t_shown t) = heard r n s (t_shown t0) /\ meant r n s (t_said t) = meant r n s (t_said t0).
Proof.
  intros Z H. induction H as [|t l t' H IH Pm St]; [auto|]. destruct IH as (Ic & Ih & Im).
  destruct (step_effect _ _ _ St) as [Em Eh Ec|new sent Em Eh Ec Or N1 N2|m x Ec Em Eh Co|m gm Ec Em Eh -> En Hi|a m b gm Ec Ec' Em Eh -> En].
  - now rewrite Em, Eh, Ec.
  - assert (new = []) as -> by (destruct (mget (c_groups (t_clients t s)) n) as [g|] eqn:G; [exact (N1 g eq_refl (Pm g G))|auto]).
    rewrite Em, Eh, Ec, app_nil_r. destruct Or as [->|[_ ->]]; rewrite app_nil_r; auto.
  - rewrite Ic in Ec. discriminate.
  - rewrite Ic in Ec. discriminate.
  - rewrite Ic in Ec. destruct a; discriminate.
Qed.
End Steps.
