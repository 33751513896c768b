(** The administrator of a group and one of its members. *)
From Verif Require Import Base IniModel IniMemProofs IniFileProofs XdrModel XdrProofs RpcModel RpcProofs CrpcModel UiModel GroupModel GroupProofs GroupProps.
Local Open Scope N_scope.

(** * C56: the member's list becomes the administrator's *)

Section Net.
Variables (sa sb : self) (n : bytes).
Let A := i_id sa.
Let b := i_id sb.

(** What the member does when a message of the administrator arrives. *)
Inductive arrives : crpc_payload -> event -> Prop :=
| Ar_invite gi known : arrives (GInvite gi) (RInvite A gi known)
| Ar_join gj known w : arrives (GJoin gj) (RJoin A gj known w)
| Ar_part gp now known w : arrives (GPart gp) (RPart A gp now known w)
| Ar_kick gk w rm : arrives (GKick gk) (RKick A gk w rm)
| Ar_kill gk rm : arrives (GKill gk) (RKill A gk rm)
| Ar_list gl w : arrives (GList gl) (RList A gl w)
| Ar_update gu w : arrives (GUpdate gu) (RUpdate A gu w)
| Ar_message gm : arrives (GMessage gm) (RMessage A gm).

(** A kick of the group that has not been acknowledged by all. *)
Definition pending (c : gclient) : Prop :=
  exists i k, nth_error (c_kicks c) i = Some k /\ q_name k = n /\ (q_got k < q_want k)%nat.

(** What may happen at the administrator: everything but restarting, giving up the
    group, messages of its own and the member joining anew; and changes of the group only if no kick is
    under way. *)
Definition usual (c : gclient) (e : event) : Prop :=
  match e with
  | Restart => False
  | CForce m _ | CKill m _ _ => m <> n
  | CKick m _ _ => m = n -> ~ pending c
  | RJoin from gj _ _ => from <> A /\ (GroupJoin_Name gj = n -> from <> b /\ ~ pending c)
  | RPart from gp _ _ _ => from <> A /\ (GroupPart_Name gp = n -> ~ pending c)
  | RKick from _ _ _ | RKill from _ _ | RList from _ _ | RUpdate from _ _ => from <> A
  | _ => True
  end.

Definition for_b (o : out) : list crpc_payload := map snd (filter (fun x => eqb (fst x) b) (o_sent o)).

(** The two clients and the messages on their way, which arrive in their order; what
    else the member does leaves the group alone. *)
Inductive net (ca0 cb0 : gclient) : gclient -> gclient -> list crpc_payload -> Prop :=
| N_start : net ca0 cb0 ca0 cb0 []
| N_admin ca cb q e o ca' : net ca0 cb0 ca cb q -> usual ca e -> gstep sa ca e o ca' -> net ca0 cb0 ca' cb (q ++ for_b o)
| N_arrive ca cb p q e o cb' : net ca0 cb0 ca cb (p :: q) -> arrives p e -> gstep sb cb e o cb' -> net ca0 cb0 ca cb' q
| N_member ca cb q e o cb' : net ca0 cb0 ca cb q -> gstep sb cb e o cb' -> mget (c_groups cb') n = mget (c_groups cb) n ->
    net ca0 cb0 ca cb' q.

(** Proof. *)

Definition act (v : option GroupList) (p : crpc_payload) : option GroupList :=
  match v, p with
  | Some _, GKick gk => if eqb (GroupList_Name (GroupKick_NewGroupList gk)) n
                        then if eqb (GroupKick_Member gk) b then None else Some (GroupKick_NewGroupList gk) else v
  | Some _, GList gl => if eqb (GroupList_Name gl) n then Some gl else v
  | Some _, GKill gk => if eqb (GroupKill_Name gk) n then None else v
  | Some _, GUpdate gu => if eqb (GroupList_Name (GroupUpdate_NewGroupList gu)) n then Some (GroupUpdate_NewGroupList gu) else v
  | _, _ => v
  end.
Definition led (g : GroupList) : Prop := exists others, GroupList_Members g = A :: others.
Definition led_by (p : crpc_payload) : Prop := forall v, match v with Some g => led g | None => True end ->
  match act v p with Some g => led g | None => True end.

Definition seen (t : GroupList) : option GroupList := if mem b (GroupList_Members t) then Some t else None.

Lemma arrive_act cb p e o cb' : A <> b -> valid_name n = true ->
  match mget (c_groups cb) n with Some g => led g | None => True end ->
  arrives p e -> gstep sb cb e o cb' -> mget (c_groups cb') n = act (mget (c_groups cb) n) p.
Proof.
  intros AB V L Ar St.
  assert (Adm : forall g, mget (c_groups cb) n = Some g -> administers cb n A).
  { intros g G. rewrite G in L. destruct L as [r M]. exists g, r. auto. }
  assert (Un : (forall gr, ~ change sb cb n e gr) -> mget (c_groups cb') n = mget (c_groups cb) n).
  { intros U. destruct (step_change _ _ _ _ _ n St) as [E|C]; auto. exfalso. eapply U; eauto. }
  destruct (mget (c_groups cb) n) as [g|] eqn:G; cbn [act].
  - specialize (Adm g eq_refl). destruct (C34_obeyed sb cb A n Adm) as (O1 & O2 & O3 & O4).
    destruct L as [r M].
    inversion Ar; subst; cbn [act].
    + apply Un. intros gr C. inversion C.
    + apply Un. intros gr C. inversion C; subst. assert (g0 = g) by congruence. subst. rewrite M in *. unfold b in AB. congruence.
    + apply Un. intros gr C. inversion C; subst. assert (g0 = g) by congruence. subst. rewrite M in *. unfold b in AB. congruence.
    + destruct (eqb_spec (GroupList_Name (GroupKick_NewGroupList gk)) n) as [Q|Q].
      * destruct (O1 _ _ _ _ _ Q St) as [X Y]. destruct (eqb_spec (GroupKick_Member gk) b); auto.
      * apply Un. intros gr C. inversion C; subst; congruence.
    + destruct (eqb_spec (GroupKill_Name gk) n) as [Q|Q]; [eapply O2; eauto|apply Un; intros gr C; inversion C; subst; congruence].
    + destruct (eqb_spec (GroupList_Name gl) n) as [Q|Q]; [eapply O3; eauto|apply Un; intros gr C; inversion C; subst; congruence].
    + destruct (eqb_spec (GroupList_Name (GroupUpdate_NewGroupList gu)) n) as [Q|Q]; [eapply O4; eauto|apply Un; intros gr C; inversion C; subst; congruence].
    + apply Un. intros gr C. inversion C.
  - apply Un.
    intros gr C. inversion Ar; subst; inversion C; subst; congruence.
Qed.

(** The list that everybody has been told. *)
Definition told (c : gclient) (t : GroupList) : Prop :=
  (exists i k, nth_error (c_kicks c) i = Some k /\ q_name k = n /\ (q_got k < q_want k)%nat /\ t = q_new k /\
     (forall j k', nth_error (c_kicks c) j = Some k' -> q_name k' = n -> (q_got k' < q_want k')%nat -> j = i)) \/
  (~ pending c /\ mget (c_groups c) n = Some t).

Definition proper (t : GroupList) : Prop := led t /\ NoDup (GroupList_Members t) /\ GroupList_Name t = n.

Lemma filter_b (o : list bytes) (f : bytes -> crpc_payload) : NoDup o ->
  map snd (filter (fun x => eqb (fst x) b) (map (fun m => (m, f m)) o)) = if mem b o then [f b] else [].
Proof.
  intros ND. induction o as [|x o IH]; auto. inversion ND as [|? ? NI ND']; subst. cbn [map filter fst mem existsb].
  rewrite (eqb_sym b x). destruct (eqb_spec x b) as [->|Q]; cbn [map snd orb].
  - rewrite IH by auto. assert (mem b o = false) as -> by now apply mem_false. reflexivity.
  - apply IH; auto.
Qed.

Definition inert (p : crpc_payload) : Prop := forall v, act v p = v.

Lemma inert_led p : inert p -> led_by p.
Proof. intros I v L. now rewrite I. Qed.
Lemma inert_all l v : Forall inert l -> fold_left act l v = v.
Proof. intros F. revert v. induction F as [|p l I F IH]; intros v; auto. cbn [fold_left]. rewrite I. apply IH. Qed.

Lemma for_b_In o p : In p (for_b o) -> exists m, In (m, p) (o_sent o).
Proof. unfold for_b. intros I. apply in_map_iff in I. destruct I as ([m p'] & <- & I). apply filter_In in I. exists m. apply I. Qed.

(** What does not concern the group. *)
Lemma sent_inert c e o c' : keyed c -> usual c e -> gstep sa c e o c' ->
  match e with CKick m _ _ => m <> n | RJoin _ gj _ _ => GroupJoin_Name gj <> n | RPart _ gp _ _ _ => GroupPart_Name gp <> n | _ => True end ->
  Forall inert (for_b o).
Proof.
  intros [K _] U H N. apply Forall_forall. intros p I. apply for_b_In in I. destruct I as [m I].
  assert (Kick : forall gk, GroupList_Name (GroupKick_NewGroupList gk) <> n -> inert (GKick gk)).
  { intros gk Q [g|]; cbn [act]; auto. destruct (eqb_spec (GroupList_Name (GroupKick_NewGroupList gk)) n); [contradiction|reflexivity]. }
  assert (Lst : forall gl, GroupList_Name gl <> n -> inert (GList gl)).
  { intros gl Q [g|]; cbn [act]; auto. destruct (eqb_spec (GroupList_Name gl) n); [contradiction|reflexivity]. }
  assert (Kill : forall gk, GroupKill_Name gk <> n -> inert (GKill gk)).
  { intros gk Q [g|]; cbn [act]; auto. destruct (eqb_spec (GroupKill_Name gk) n); [contradiction|reflexivity]. }
  destruct e; cbn [gstep usual] in *.
  - unfold gc_new in H. destruct (if valid_name n0 then _ else _); [apply pair_equal_spec in H; destruct H as [-> _]; destruct I|].
    destruct (mhas _ _); [apply pair_equal_spec in H; destruct H as [-> _]; destruct I|].
    destruct (save_group _ _ _). apply pair_equal_spec in H; destruct H as [-> _]; destruct I.
  - unfold gc_invite in H. destruct (mget _ _) as [g|]; [|destruct H as [-> _]; destruct I]. destruct (admin g) as [a|]; [|destruct H as [-> _]; destruct I].
    destruct (negb _); [destruct H as [-> _]; destruct I|]. destruct (mem _ _); [destruct H as [-> _]; destruct I|].
    destruct H as ([gi|] & f' & _ & _ & ->); [|destruct I]. destruct I as [I|[]]. injection I as <- <-. intros [v|]; reflexivity.
  - unfold gc_join in H. destruct (mhas _ _); [destruct H as [-> _]; destruct I|]. destruct H as (r & _ & H). destruct r as [y0|]; [|destruct H as [-> _]; destruct I].
    assert (Q : In (m, p) [(y0, GJoin (mkGroupJoin n0 token []))]).
    { destruct (save_group _ _ _) as [c1 x]. destruct (negb x); [destruct H as [-> _]|destruct H as (y & f' & _ & _ & ->)]; exact I. }
    destruct Q as [Q|[]]. injection Q as <- <-. intros [v|]; reflexivity.
  - unfold gc_kick in H. destruct (mget (c_groups c) n0) as [g|] eqn:G; [|apply pair_equal_spec in H; destruct H as [-> _]; destruct I].
    destruct (GroupList_Members g) as [|a others]; [apply pair_equal_spec in H; destruct H as [-> _]; destruct I|].
    destruct (negb _); [apply pair_equal_spec in H; destruct H as [-> _]; destruct I|].
    destruct (eqb _ _); [apply pair_equal_spec in H; destruct H as [-> _]; destruct I|].
    apply pair_equal_spec in H; destruct H as [-> _]. cbn [o_sent] in I. apply in_map_iff in I. destruct I as (x & E & _). injection E as _ <-.
    apply Kick. cbn. now rewrite (K _ _ G).
  - destruct H as [-> _]. destruct I.
  - destruct H as [-> _]. unfold gc_part in I. destruct (mget _ _) as [g|]; [|destruct I]. destruct (admin g) as [a|]; [|destruct I].
    destruct (eqb _ _); [destruct I|]. destruct I as [I|[]]. injection I as _ <-. intros [v|]; reflexivity.
  - destruct (delete_group _ _ _). destruct H as [-> _]. destruct I.
  - unfold gc_kill in H. destruct (negb online); [apply pair_equal_spec in H; destruct H as [-> _]; destruct I|].
    destruct (mget _ _) as [g|]; [|apply pair_equal_spec in H; destruct H as [-> _]; destruct I]. destruct (delete_group _ _ _).
    destruct (GroupList_Members g); [apply pair_equal_spec in H; destruct H as [-> _]; destruct I|].
    destruct (negb _); apply pair_equal_spec in H; destruct H as [-> _]; [destruct I|].
    cbn [done o_sent] in I. apply in_map_iff in I. destruct I as (x & E & _). injection E as _ <-. now apply Kill.
  - destruct H as [-> _]. unfold gc_message in I. destruct (mget _ _) as [g|]; [|destruct I]. cbn [o_sent] in I. apply in_map_iff in I.
    destruct I as (x & E & _). injection E as _ <-. intros [v|]; reflexivity.
  - destruct H as [-> _]. destruct I.
  - unfold handle_join in H. destruct (mget (c_groups c) (GroupJoin_Name gj)) as [g|] eqn:G; [|destruct H as [-> _]; destruct I].
    destruct (GroupList_Members g) as [|a others]; [destruct H as [-> _]; destruct I|]. destruct (negb _); [destruct H as [-> _]; destruct I|].
    destruct H as (ok & f' & _ & H). destruct (negb ok); [destruct H as [-> _]; destruct I|]. destruct (negb _); [destruct H as [-> _]; destruct I|].
    destruct (mem _ _); [destruct H as [-> _]; destruct I|]. destruct (save_group _ _ _) as [c2 x]. destruct x; destruct H as [-> _]; [|destruct I].
    cbn [o_sent] in I. apply in_map_iff in I. destruct I as (x & E & _). injection E as _ <-. apply Lst. cbn. now rewrite (K _ _ G).
  - unfold handle_part in H. destruct (mget (c_groups c) (GroupPart_Name gp)) as [g|] eqn:G; [|apply pair_equal_spec in H; destruct H as [-> _]; destruct I].
    destruct (GroupList_Members g) as [|a others]; [apply pair_equal_spec in H; destruct H as [-> _]; destruct I|].
    destruct (negb _); [apply pair_equal_spec in H; destruct H as [-> _]; destruct I|].
    destruct (negb _); [apply pair_equal_spec in H; destruct H as [-> _]; destruct I|]. destruct (save_group _ _ _).
    apply pair_equal_spec in H; destruct H as [-> _]. cbn [done o_sent] in I. apply in_map_iff in I. destruct I as (x & E & _). injection E as _ <-.
    apply Kick. cbn. now rewrite (K _ _ G).
  - unfold handle_kick in H. destruct (mget _ _) as [g|]; [|apply pair_equal_spec in H; destruct H as [-> _]; destruct I].
    destruct (admin g); [|apply pair_equal_spec in H; destruct H as [-> _]; destruct I].
    destruct (negb _); [apply pair_equal_spec in H; destruct H as [-> _]; destruct I|].
    destruct (if eqb (GroupKick_Member gk) (i_id sa) then _ else _). apply pair_equal_spec in H; destruct H as [-> _]; destruct I.
  - unfold handle_kill in H. destruct (mget _ _) as [g|]; [|apply pair_equal_spec in H; destruct H as [-> _]; destruct I].
    destruct (admin g); [|apply pair_equal_spec in H; destruct H as [-> _]; destruct I].
    destruct (negb _); [apply pair_equal_spec in H; destruct H as [-> _]; destruct I|].
    destruct (delete_group _ _ _). apply pair_equal_spec in H; destruct H as [-> _]; destruct I.
  - apply pair_equal_spec in H; destruct H as [-> _]; destruct I.
  - apply pair_equal_spec in H; destruct H as [-> _]; destruct I.
  - unfold handle_message in H. destruct (mget _ _) as [g|]; [destruct (mem _ _); [destruct (highlight _ _ _ _ _ _)|]|];
      apply pair_equal_spec in H; destruct H as [-> _]; destruct I.
  - contradiction.
Qed.

Lemma told_same c c' t : c_kicks c' = c_kicks c -> mget (c_groups c') n = mget (c_groups c) n -> told c t -> told c' t.
Proof. intros K G T. unfold told, pending in *. rewrite K, G. exact T. Qed.

Definition good_admin (c : gclient) (t : GroupList) : Prop :=
  keyed c /\ (exists g, mget (c_groups c) n = Some g /\ proper g) /\ told c t /\ proper t.

Lemma nodup_without x l : NoDup l -> NoDup (without x l) /\ forall y, In y (without x l) <-> In y l /\ y <> x.
Proof.
  induction l as [|z l IH]; intros ND; cbn [without]; [split; [constructor|intros y; split; [intros []|intros [[] _]]]|].
  inversion ND as [|? ? NI ND']; subst. destruct (eqb_spec z x) as [->|Q].
  - split; auto. intros y. cbn [In]. split; [intros I; split; [auto|intros ->; contradiction]|]. intros [[->|I] Ny]; [congruence|auto].
  - destruct (IH ND') as [N1 N2]. split; [constructor; auto; rewrite N2; tauto|]. intros y. cbn [In]. rewrite N2.
    split; [intros [->|[I Ny]]; auto|]. intros [[->|I] Ny]; auto.
Qed.

Lemma nodup_filter (f : bytes -> bool) (l : list bytes) : NoDup l -> NoDup (filter f l).
Proof. apply NoDup_filter. Qed.

Lemma mem_iff (x : bytes) l l' : (In x l <-> In x l') -> mem x l = mem x l'.
Proof.
  intros E. destruct (mem x l) eqn:M1, (mem x l') eqn:M2; auto.
  - apply mem_In, E, mem_In in M1. congruence.
  - apply mem_In, E, mem_In in M2. congruence.
Qed.

Lemma admin_step c t e o c' : A <> b -> good_admin c t -> usual c e -> gstep sa c e o c' ->
  exists t', good_admin c' t' /\ fold_left act (for_b o) (seen t) = seen t' /\ Forall led_by (for_b o).
Proof.
  intros AB (K & (g & G & Pg) & T & Pt) U St.
  assert (K' : keyed c') by (eapply step_keyed; eauto).
  pose proof (step_kicks _ _ _ _ _ St) as SK.
  assert (Same : c_kicks c' = c_kicks c -> mget (c_groups c') n = mget (c_groups c) n -> Forall inert (for_b o) ->
    exists t', good_admin c' t' /\ fold_left act (for_b o) (seen t) = seen t' /\ Forall led_by (for_b o)).
  { intros Ek Eg Fi. exists t. split; [split; auto; split; [exists g; split; [congruence|auto]|split; [eapply told_same; eauto|auto]]|].
    split; [now apply inert_all|]. eapply Forall_impl; [|exact Fi]. apply inert_led. }
  assert (Unch : match e with CKick _ _ _ | CAcked _ _ | RJoin _ _ _ _ | RPart _ _ _ _ _ => True | _ =>
            mget (c_groups c') n = mget (c_groups c) n end).
  { destruct (step_change _ _ _ _ _ n St) as [E|C]; [destruct e; auto|].
    destruct Pg as [[r Mg] _].
    destruct e; auto; inversion C; subst; cbn [usual] in U; try congruence; try contradiction;
      try (exfalso; apply U; match goal with X : mget (c_groups c) _ = Some ?g1, Y : admin ?g1 = Some _ |- _ =>
        assert (g1 = g) by congruence; subst g1; unfold admin in Y; rewrite Mg in Y; congruence end). }
  destruct e; try (apply Same; [exact SK|exact Unch|eapply sent_inert; [exact K|exact U|exact St|exact I]]).
  - (* kick *)
    destruct (eqb_spec n0 n) as [->|Nn].
    2:{ (* another group *)
      assert (Eg : mget (c_groups c') n = mget (c_groups c) n).
      { destruct (step_change _ _ _ _ _ n St) as [E|C]; [exact E|]. inversion C. }
      destruct SK as [SK|(g1 & o1 & G1 & M1 & _ & SK)]; [apply Same; auto; eapply sent_inert; [exact K|exact U|exact St|auto]|].
      assert (Fi : Forall inert (for_b o)) by (eapply sent_inert; [exact K|exact U|exact St|auto]).
      assert (Pend : forall i k, nth_error (c_kicks c') i = Some k -> q_name k = n -> nth_error (c_kicks c) i = Some k).
      { intros i k E Q. rewrite SK in E. destruct (Nat.lt_ge_cases i (length (c_kicks c))) as [L|L]; [now rewrite nth_error_app1 in E by auto|].
        rewrite nth_error_app2 in E by auto. destruct (i - length (c_kicks c))%nat as [|[|j]]; cbn in E; try discriminate. injection E as <-.
        cbn in Q. contradiction. }
      assert (Keep : forall i k, nth_error (c_kicks c) i = Some k -> nth_error (c_kicks c') i = Some k).
      { intros i k E. rewrite SK, nth_error_app1; auto. apply nth_error_Some. congruence. }
      exists t. split; [split; auto; split; [exists g; split; [congruence|auto]|split; auto]|].
      - destruct T as [(i & k & E & Q & L & -> & Un)|[NP Gt]].
        + left. exists i, k. split; auto. split; auto. split; auto. split; auto. intros j k' E' Q' L'. eapply Un; eauto.
        + right. split; [|congruence]. intros (i & k & E & Q & L). apply NP. exists i, k. eauto.
      - split; [now apply inert_all|]. eapply Forall_impl; [|exact Fi]. apply inert_led. }
    cbn [usual] in U. specialize (U eq_refl). destruct T as [(i & k & E & Q & L & _)|[_ Gt]]; [exfalso; apply U; exists i, k; auto|].
    assert (t = g) by congruence. subst t. clear Gt Pt. destruct Pg as ([others Mg] & ND & Nm).
    cbn [gstep] in St. unfold gc_kick in St. rewrite G, Mg, eqb_refl in St. cbn [negb] in St.
    destruct (eqb_spec A who) as [Qw|Qw].
    { apply pair_equal_spec in St. destruct St as [-> ->]. apply Same; auto. constructor. }
    rewrite <- Mg in St. set (g' := mkGroupList _ _ _ _) in St. apply pair_equal_spec in St. destruct St as [-> ->].
    assert (Pg' : proper g').
    { split; [|split].
      - exists (filter (fun m => negb (eqb m who)) others). unfold g'. cbn [GroupList_Members]. rewrite Mg. cbn [filter].
        destruct (eqb_spec A who); [contradiction|reflexivity].
      - unfold g'. cbn [GroupList_Members]. now apply NoDup_filter.
      - exact Nm. }
    assert (NDo : NoDup others) by (rewrite Mg in ND; now inversion ND).
    unfold for_b. cbn [o_sent]. rewrite (filter_b others (fun _ => GKick (mkGroupKick who (bs "you have been a bad boy!") false g'))) by auto.
    assert (Mb : mem b others = mem b (GroupList_Members g)).
    { apply mem_iff. rewrite Mg. split; [now right|]. intros [Q|I]; [congruence|auto]. }
    exists (match others with [] => g | _ => g' end). split; [|split].
    + split; auto. cbn [set_kicks c_groups c_kicks]. split; [exists g; split; auto; split; [exists others; auto|auto]|].
      assert (Old : forall j k', nth_error (c_kicks c) j = Some k' -> q_name k' = n -> (q_got k' < q_want k')%nat -> False).
      { intros j k' E Q L. apply U. exists j, k'. auto. }
      destruct others as [|x others].
      * split; [|split; [exists []; auto|auto]]. right. split; [|exact G].
        intros (i & k & E & Q & L). cbn [set_kicks c_kicks] in E. destruct (Nat.lt_ge_cases i (length (c_kicks c))) as [Li|Li].
        { rewrite nth_error_app1 in E by auto. eauto. }
        rewrite nth_error_app2 in E by auto. destruct (i - length (c_kicks c))%nat as [|[|j]]; cbn in E; try discriminate. injection E as <-. cbn in L. lia.
      * split; auto. left. exists (length (c_kicks c)), (mkKick n g' 0 (length (x :: others))).
        split; [cbn [set_kicks c_kicks]; rewrite nth_error_app2, Nat.sub_diag by auto; reflexivity|]. split; auto. split; [cbn; lia|]. split; auto.
        intros j k' E Q L. cbn [set_kicks c_kicks] in E. destruct (Nat.lt_ge_cases j (length (c_kicks c))) as [Li|Li].
        { rewrite nth_error_app1 in E by auto. exfalso; eauto. }
        rewrite nth_error_app2 in E by auto. destruct (j - length (c_kicks c))%nat as [|[|j']] eqn:Ej; cbn in E; try discriminate. lia.
    + unfold seen. rewrite <- Mb. destruct others as [|x others]; [now rewrite <- Mb|]. set (ot := x :: others) in *. destruct (mem b ot) eqn:Mo.
      * cbn [fold_left act GroupKick_NewGroupList GroupKick_Member]. assert (GroupList_Name g' = n) as -> by exact Nm. rewrite eqb_refl.
        unfold g' at 1 2. cbn [GroupList_Members]. destruct (eqb_spec who b) as [Qb|Qb].
        -- assert (mem b (filter (fun m => negb (eqb m who)) (GroupList_Members g)) = false) as ->; auto. apply mem_false. intros I.
           apply filter_In in I. destruct I as [_ I]. subst who. rewrite eqb_refl in I. discriminate.
        -- assert (mem b (filter (fun m => negb (eqb m who)) (GroupList_Members g)) = true) as ->; auto. apply mem_In, filter_In.
           split; [apply mem_In; congruence|]. destruct (eqb_spec b who); [congruence|reflexivity].
      * cbn [fold_left]. assert (mem b (GroupList_Members g') = false) as ->; auto. apply mem_false. unfold g'. cbn [GroupList_Members]. intros I.
        apply filter_In in I. destruct I as [I _]. apply mem_In in I. congruence.
    + destruct (mem b others); constructor; auto. intros v Lv. destruct v as [v|]; cbn [act GroupKick_NewGroupList GroupKick_Member]; auto.
      destruct (eqb _ n); auto. destruct (eqb who b); auto. apply Pg'.
  - (* acknowledgement *)
    destruct St as [-> St]. assert (Fi : for_b fine = []) by reflexivity. rewrite Fi. cbn [fold_left].
    exists t. split; [|split; [reflexivity|constructor]]. split; auto.
    unfold kick_acked in St. destruct (nth_error (c_kicks c) i) as [k|] eqn:E.
    2:{ subst c'. split; [exists g; auto|auto]. }
    assert (Kn : forall j k', nth_error (c_kicks c') j = Some k' -> exists k0, nth_error (c_kicks c) j = Some k0 /\ q_name k' = q_name k0 /\
        q_new k' = q_new k0 /\ q_want k' = q_want k0 /\ q_got k' = (q_got k0 + if Nat.eqb i j then 1 else 0)%nat).
    { intros j k' E'. rewrite SK, put_kick_nth in E'. destruct (Nat.eqb_spec i j) as [->|Q].
      - rewrite E in E'. injection E' as <-. exists k. cbn. repeat (split; auto); lia.
      - exists k'. repeat (split; auto); lia. }
    assert (Kk : forall j k0, nth_error (c_kicks c) j = Some k0 -> exists k', nth_error (c_kicks c') j = Some k' /\ q_name k' = q_name k0 /\
        q_new k' = q_new k0 /\ q_want k' = q_want k0 /\ q_got k' = (q_got k0 + if Nat.eqb i j then 1 else 0)%nat).
    { intros j k0 E'. rewrite SK. rewrite put_kick_nth, E'. destruct (Nat.eqb_spec i j) as [->|Q].
      - assert (k0 = k) by congruence. subst. eexists. split; [reflexivity|]. cbn. repeat (split; auto); lia.
      - exists k0. repeat (split; auto); lia. }
    clear SK. cbn [q_got q_want q_name q_new set_kicks c_groups] in St.
    destruct (Nat.eqb_spec (S (q_got k)) (q_want k)) as [Qk|Qk]; cbn [negb] in St.
    + destruct (eqb_spec (q_name k) n) as [Qn|Qn].
      * (* the last one of the kick under way *)
        rewrite Qn in St. unfold mhas in St. rewrite G in St.
        destruct (save_group _ _ _) as [c2 x] eqn:Sv. apply save_frame in Sv. destruct Sv as (Sg & _). cbn [fst] in St. subst c2.
        cbn [set_groups c_groups] in Sg.
        destruct T as [(i0 & k0 & E0 & Q0 & L0 & -> & Un)|[NP _]]; [|exfalso; apply NP; exists i, k; repeat (split; auto); lia].
        assert (i = i0) by (eapply Un; eauto; lia). subst i0. assert (k0 = k) by congruence. subst k0.
        split; [exists (q_new k); split; [rewrite Sg; apply mget_mset_eq|auto]|]. split; auto. right. split; [|rewrite Sg; apply mget_mset_eq].
        intros (j & k' & Ej & Qj & Lj). destruct (Kn _ _ Ej) as (k1 & E1 & N1 & _ & W1 & G1).
        assert (j = i).
        { apply (Un j k1); auto; [congruence|]. destruct (Nat.eqb i j); lia. }
        subst j. rewrite Nat.eqb_refl in G1. assert (k1 = k) by congruence. subst k1. lia.
      * assert (Eg : mget (c_groups c') n = mget (c_groups c) n).
        { subst c'. destruct (mhas _ _); auto. destruct (save_group _ _ _) as [c2 x] eqn:Sv. apply save_frame in Sv. destruct Sv as (Sg & _).
          cbn [fst]. rewrite Sg. cbn [set_groups c_groups]. apply mget_mset_ne. congruence. }
        split; [exists g; split; [congruence|auto]|]. split; auto.
        destruct T as [(i0 & k0 & E0 & Q0 & L0 & -> & Un)|[NP Gt]].
        -- left. destruct (Kk _ _ E0) as (k1 & E1 & N1 & W1 & V1 & G1). exists i0, k1.
           assert (i <> i0) by (intros ->; congruence). destruct (Nat.eqb_spec i i0); [congruence|].
           split; auto. split; [congruence|]. split; [lia|]. split; [congruence|]. intros j k' Ej Qj Lj.
           destruct (Kn _ _ Ej) as (k2 & E2 & N2 & _ & V2 & G2). apply (Un j k2); auto; [congruence|]. destruct (Nat.eqb i j); lia.
        -- right. split; [|congruence]. intros (j & k' & Ej & Qj & Lj). destruct (Kn _ _ Ej) as (k2 & E2 & N2 & _ & V2 & G2).
           apply NP. exists j, k2. split; auto. split; [congruence|]. destruct (Nat.eqb i j); lia.
    + subst c'. cbn [set_kicks c_groups] in *. split; [exists g; auto|]. split; auto.
      destruct T as [(i0 & k0 & E0 & Q0 & L0 & -> & Un)|[NP Gt]].
      * left. destruct (Kk _ _ E0) as (k1 & E1 & N1 & W1 & V1 & G1). exists i0, k1. split; auto. split; [congruence|].
        split. { destruct (Nat.eqb_spec i i0) as [->|]; [|lia]. assert (k0 = k) by congruence. subst. lia. }
        split; [congruence|]. intros j k' Ej Qj Lj.
        destruct (Kn _ _ Ej) as (k2 & E2 & N2 & _ & V2 & G2). apply (Un j k2); auto; [congruence|]. destruct (Nat.eqb i j); lia.
      * right. split; [|exact Gt]. intros (j & k' & Ej & Qj & Lj). destruct (Kn _ _ Ej) as (k2 & E2 & N2 & _ & V2 & G2).
        apply NP. exists j, k2. split; auto. split; [congruence|]. destruct (Nat.eqb i j); lia.
  - (* joining *)
    destruct (eqb_spec (GroupJoin_Name gj) n) as [Qn|Qn].
    2:{ apply Same; auto; [|eapply sent_inert; [exact K|exact U|exact St|auto]]. destruct (step_change _ _ _ _ _ n St) as [E|C]; auto. inversion C; subst; congruence. }
    destruct U as [Ua U]. destruct (U Qn) as [Ub NP]. destruct T as [(i & k & E & Q & L & _)|[_ Gt]]; [exfalso; apply NP; exists i, k; auto|].
    assert (t = g) by congruence. subst t. clear Gt Pt.
    pose proof St as St0. cbn [gstep] in St. unfold handle_join in St. rewrite Qn, G in St. destruct Pg as ([others Mg] & ND & Nm).
    rewrite Mg, eqb_refl in St. cbn [negb] in St. rewrite <- Mg in St. destruct St as (ok & f' & _ & St).
    assert (Er : o = error /\ c' = set_invites c f' -> exists t', good_admin c' t' /\ fold_left act (for_b o) (seen g) = seen t' /\ Forall led_by (for_b o)).
    { intros [-> ->]. apply Same; auto. constructor. }
    destruct (negb ok); [auto|]. destruct (negb (known from)); [auto|]. destruct (mem from others) eqn:Mf; [auto|]. clear Er.
    set (g' := mkGroupList _ _ _ _) in St. destruct (save_group _ _ _) as [c2 x] eqn:Sv. apply save_frame in Sv. destruct Sv as (Sg & _ & _ & Sk & _).
    cbn [set_groups set_invites c_groups c_kicks] in Sg, Sk. destruct x.
    2:{ destruct St as [-> ->]. apply Same; auto. - cbn [set_groups c_groups]. rewrite Sg, mget_mset_eq. now rewrite G. - constructor. }
    destruct St as [-> ->]. apply mem_false in Mf.
    assert (NDo : NoDup (others ++ [from])).
    { rewrite Mg in ND. inversion ND as [|? ? NA NDo]; subst. apply (Permutation.Permutation_NoDup (l := from :: others)); [apply Permutation.Permutation_cons_append|now constructor]. }
    assert (Pg' : proper g').
    { split; [|split; [|exact Nm]].
      - exists (others ++ [from]). unfold g'. cbn [GroupList_Members]. now rewrite Mg.
      - unfold g'. cbn [GroupList_Members]. rewrite Mg. cbn [app]. rewrite Mg in ND. inversion ND as [|? ? NA _]; subst. constructor; auto.
        intros I. apply in_app_or in I. destruct I as [I|[I|[]]]; [auto|]. apply Ua. exact I. }
    unfold for_b. cbn [o_sent]. rewrite (filter_b (others ++ [from]) (fun _ => GList g')) by auto.
    assert (Mb : mem b (others ++ [from]) = mem b (GroupList_Members g)).
    { apply mem_iff. rewrite Mg. rewrite in_app_iff. cbn [In]. split; [intros [I|[I|[]]]; [auto|congruence]|]. intros [Q|I]; [congruence|auto]. }
    assert (Mb' : mem b (GroupList_Members g') = mem b (GroupList_Members g)).
    { rewrite <- Mb. apply mem_iff. unfold g'. cbn [GroupList_Members]. rewrite Mg. cbn [app In]. split; [intros [Q|I]; [congruence|auto]|auto]. }
    exists g'. split; [|split].
    + split; auto. split; [exists g'; split; [rewrite Sg; apply mget_mset_eq|auto]|]. split; auto. right.
      split; [|rewrite Sg; apply mget_mset_eq]. unfold pending in *. now rewrite SK.
    + unfold seen. rewrite Mb', Mb. destruct (mem b (GroupList_Members g)); auto. cbn [fold_left act].
      assert (GroupList_Name g' = n) as -> by exact Nm. now rewrite eqb_refl.
    + destruct (mem b _); constructor; auto. intros v Lv. destruct v as [v|]; cbn [act]; auto. destruct (eqb _ n); auto. apply Pg'.
  - (* leaving *)
    destruct (eqb_spec (GroupPart_Name gp) n) as [Qn|Qn].
    2:{ apply Same; auto; [|eapply sent_inert; [exact K|exact U|exact St|auto]]. destruct (step_change _ _ _ _ _ n St) as [E|C]; auto. inversion C; subst; congruence. }
    destruct U as [Ua U]. specialize (U Qn). destruct T as [(i & k & E & Q & L & _)|[_ Gt]]; [exfalso; apply U; exists i, k; auto|].
    assert (t = g) by congruence. subst t. clear Gt Pt.
    cbn [gstep] in St. unfold handle_part in St. rewrite Qn, G in St. destruct Pg as ([others Mg] & ND & Nm).
    rewrite Mg, eqb_refl in St. cbn [negb] in St. destruct (mem from others) eqn:Mf; cbn [negb] in St.
    2:{ apply pair_equal_spec in St. destruct St as [-> ->]. apply Same; auto. constructor. }
    set (g' := mkGroupList _ _ _ _) in St. destruct (save_group _ _ _) as [c2 x] eqn:Sv. apply save_frame in Sv. destruct Sv as (Sg & _ & _ & Sk & _).
    cbn [set_groups c_groups c_kicks] in Sg, Sk. apply pair_equal_spec in St. destruct St as [-> ->].
    assert (NDo : NoDup others /\ ~ In A others) by (rewrite Mg in ND; inversion ND; auto). destruct NDo as [NDo NA].
    destruct (nodup_without from others NDo) as [W1 W2].
    assert (Pg' : proper g').
    { split; [|split; [|exact Nm]].
      - exists (without from others). reflexivity.
      - unfold g'. cbn [GroupList_Members]. constructor; auto. rewrite W2. tauto. }
    unfold for_b. cbn [done o_sent]. rewrite (filter_b others (fun _ => GKick (mkGroupKick from (GroupPart_Reason gp) true g'))) by auto.
    assert (Mb : mem b others = mem b (GroupList_Members g)).
    { apply mem_iff. rewrite Mg. split; [now right|]. intros [Q|I]; [congruence|auto]. }
    exists g'. split; [|split].
    + split; auto. split; [exists g'; split; [rewrite Sg; apply mget_mset_eq|auto]|]. split; auto. right.
      split; [|rewrite Sg; apply mget_mset_eq]. unfold pending in *. now rewrite SK.
    + unfold seen. rewrite <- Mb. destruct (mem b others) eqn:Mo.
      * cbn [fold_left act GroupKick_NewGroupList GroupKick_Member]. assert (GroupList_Name g' = n) as -> by exact Nm. rewrite eqb_refl.
        destruct (eqb_spec from b) as [Qb|Qb].
        -- assert (mem b (GroupList_Members g') = false) as ->; auto. apply mem_false. unfold g'. cbn [GroupList_Members In]. rewrite W2. intros [Q|[_ Q]]; congruence.
        -- assert (mem b (GroupList_Members g') = true) as ->; auto. apply mem_In. unfold g'. cbn [GroupList_Members In]. right. rewrite W2.
           split; [now apply mem_In|congruence].
      * cbn [fold_left]. assert (mem b (GroupList_Members g') = false) as ->; auto. apply mem_false. unfold g'. cbn [GroupList_Members In]. rewrite W2.
        apply mem_false in Mo. intros [Q|[Q _]]; [congruence|contradiction].
    + destruct (mem b others); constructor; auto. intros v Lv. destruct v as [v|]; cbn [act GroupKick_NewGroupList GroupKick_Member]; auto.
      destruct (eqb _ n); auto. destruct (eqb from b); auto. apply Pg'.
  - destruct U.
Qed.

Lemma net_inv ca0 cb0 ca cb q t0 : A <> b -> valid_name n = true -> good_admin ca0 t0 -> mget (c_groups cb0) n = seen t0 ->
  net ca0 cb0 ca cb q ->
  exists t, good_admin ca t /\ fold_left act q (mget (c_groups cb) n) = seen t /\ Forall led_by q /\
    match mget (c_groups cb) n with Some g => led g | None => True end.
Proof.
  intros AB V G0 B0 N. induction N as [|ca cb q e o ca' N IH U St|ca cb p q e o cb' N IH Ar St|ca cb q e o cb' N IH St Eq].
  - exists t0. split; auto. split; auto. split; [constructor|]. rewrite B0. unfold seen. destruct (mem b _); auto. apply G0.
  - destruct IH as (t & Gt & Fo & Fl & L). destruct (admin_step _ _ _ _ _ AB Gt U St) as (t' & Gt' & Fo' & Fl'). exists t'. split; auto.
    split; [now rewrite fold_left_app, Fo, Fo'|]. split; auto. now apply Forall_app.
  - destruct IH as (t & Gt & Fo & Fl & L). inversion Fl as [|? ? Lp Fl']; subst. exists t. split; auto.
    rewrite (arrive_act _ _ _ _ _ AB V L Ar St). split; [exact Fo|]. split; [exact Fl'|]. apply (Lp _ L).
  - rewrite Eq. exact IH.
Qed.
End Net.

(** After everything has arrived and no kick is under way, the member has the
    administrator's list as long as it is in it, and otherwise no such group. *)
Theorem C56_converge : forall sa sb n ca0 cb0 ca cb g0 others,
  i_id sa <> i_id sb -> valid_name n = true -> keyed ca0 -> ~ pending n ca0 ->
  mget (c_groups ca0) n = Some g0 -> GroupList_Members g0 = i_id sa :: others -> NoDup (GroupList_Members g0) -> In (i_id sb) others ->
  mget (c_groups cb0) n = Some g0 ->
  net sa sb n ca0 cb0 ca cb [] -> ~ pending n ca ->
  exists g, mget (c_groups ca) n = Some g /\
    (In (i_id sb) (GroupList_Members g) -> mget (c_groups cb) n = Some g) /\
    (~ In (i_id sb) (GroupList_Members g) -> mget (c_groups cb) n = None).
Proof.
  intros sa sb n ca0 cb0 ca cb g0 others AB V K NP Ga M ND I Gb N NP'.
  assert (P0 : proper sa n g0) by (split; [exists others; auto|split; [auto|now apply K]]).
  assert (G0 : good_admin sa n ca0 g0).
  { split; auto. split; [exists g0; auto|]. split; auto. now right. }
  assert (B0 : mget (c_groups cb0) n = seen sb g0).
  { unfold seen. rewrite (proj2 (mem_In _ _)); auto. rewrite M. now right. }
  destruct (net_inv sa sb n ca0 cb0 ca cb [] g0 AB V G0 B0 N) as (t & (_ & _ & T & _) & E & _). cbn [fold_left] in E.
  destruct T as [(i & k & E0 & Q & L & _)|[_ Gt]]; [exfalso; apply NP'; exists i, k; auto|]. exists t. split; auto. rewrite E. unfold seen.
  split; intros J; [now rewrite (proj2 (mem_In _ _) J)|]. now rewrite (proj2 (mem_false _ _) J).
Qed.
Print Assumptions C56_converge.

(** Bob is told that Carol leaves, and then that he is kicked; a message to him is
    still on its way in between. *)
Definition selfb : self := mkSelf bob (bs "bob") (fun r => r) [] [].
Example C56_case : exists ca cb1 cb,
  net self0 selfb club (trio 5 [me0; bob; carol]) (trio 5 [me0; bob; carol]) ca cb1 [GKick (mkGroupKick carol [] true (mkGroupList club 6 9 [me0; bob]))] /\
  net self0 selfb club (trio 5 [me0; bob; carol]) (trio 5 [me0; bob; carol]) ca cb [] /\ ~ pending club ca /\
  c_groups cb1 = [(club, mkGroupList club 5 3 [me0; bob; carol])] /\
  c_groups cb = [(club, mkGroupList club 6 9 [me0; bob])] /\ c_groups ca = c_groups cb.
Proof.
  set (c0 := trio 5 [me0; bob; carol]). set (gp := mkGroupPart club []). set (g := mkGroupList club 6 9 [me0; bob]).
  set (gk := mkGroupKick carol [] true g). set (ca := mkGclient [(club, g)] [(club, enc GroupList_codec g)] None None []).
  exists ca, c0, ca.
  assert (N1 : net self0 selfb club c0 c0 ca c0 [GKick gk]).
  { apply (N_admin self0 selfb club c0 c0 c0 c0 [] (RPart carol gp 9 (fun _ => true) Written) (done true [(bob, GKick gk); (carol, GKick gk)]) ca).
    - constructor.
    - split; [discriminate|]. intros _ (i & k & E & _). destruct i; discriminate.
    - cbn [gstep]. vm_compute. reflexivity. }
  split; [exact N1|]. split.
  { apply (N_arrive self0 selfb club c0 c0 ca c0 (GKick gk) [] (RKick me0 gk Written true) (done true []) ca N1).
    - apply Ar_kick.
    - cbn [gstep]. vm_compute. reflexivity. }
  split; [|split; [reflexivity|split; reflexivity]]. intros (i & k & E & _). destruct i; discriminate.
Qed.
