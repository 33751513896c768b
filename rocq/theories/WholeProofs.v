(** Invariants of a whole conversation (WholeModel.v), for WholeProps.v. *)
From Verif Require Import Base IniModel IniMemProofs IniDiskProofs XdrModel XdrProofs RpcModel RpcProofs.
From Verif Require Import MailModel MailProofs MailOnce MailKept AckProps WholeMail.
From Verif Require Import RatchetModel RatchetProofs RatchetSaveProofs RatchetConvModel RatchetConvProofs CrashModel CrashProofs CrashProps OnceProps WholeRatchet WholeModel.
Local Open Scope N_scope.

(** * Lists with some left out *)

Lemma sub_nil_l {A} (l : list A) : sub [] l.
Proof. induction l; constructor; auto. Qed.
Lemma sub_refl {A} (l : list A) : sub l l.
Proof. induction l; [constructor|now apply sub_take]. Qed.
Lemma sub_trans {A} (l1 l2 l3 : list A) : sub l1 l2 -> sub l2 l3 -> sub l1 l3.
Proof.
  intros X Y. revert l1 X. induction Y as [|x l l' Y IH|x l l' Y IH]; intros l1 X; [exact X|apply sub_skip; auto|].
  inversion X; subst; [apply sub_skip|apply sub_take]; auto.
Qed.
Lemma sub_In {A} (l l' : list A) x : sub l l' -> In x l -> In x l'.
Proof. induction 1; cbn; tauto. Qed.
Lemma sub_app {A} (a a' b b' : list A) : sub a a' -> sub b b' -> sub (a ++ b) (a' ++ b').
Proof. induction 1; cbn; intros; [assumption|apply sub_skip|apply sub_take]; auto. Qed.
Lemma sub_map {A B} (f : A -> B) l l' : sub l l' -> sub (map f l) (map f l').
Proof. induction 1; cbn; [apply sub_nil|apply sub_skip|apply sub_take]; auto. Qed.
Lemma sub_filter {A} (f : A -> bool) l : sub (filter f l) l.
Proof. induction l as [|x l IH]; cbn; [constructor|]. destruct (f x); [apply sub_take|apply sub_skip]; auto. Qed.
Lemma sub_filter2 {A} (f : A -> bool) l l' : sub l l' -> sub (filter f l) (filter f l').
Proof. induction 1; cbn; [constructor| |]; destruct (f x); auto; [apply sub_skip|apply sub_take]; auto. Qed.
Lemma sub_app_l {A} (a b : list A) : sub a (a ++ b).
Proof. rewrite <- (app_nil_r a) at 1. apply sub_app; [apply sub_refl|apply sub_nil_l]. Qed.
Lemma sub_app_r {A} (a b : list A) : sub b (a ++ b).
Proof. apply (sub_app [] a b b); [apply sub_nil_l|apply sub_refl]. Qed.
Lemma sub_one {A} (l : list A) x : In x l -> sub [x] l.
Proof. induction l as [|y l IH]; [intros []|]. intros [->|X]; [apply sub_take, sub_nil_l|apply sub_skip; auto]. Qed.
Lemma sub_two {A} (a b : list A) x y : In x a -> In y b -> sub [x; y] (a ++ b).
Proof. intros X Y. apply (sub_app [x] a [y] b); now apply sub_one. Qed.
Lemma sub_length {A} (l l' : list A) : sub l l' -> (length l <= length l')%nat.
Proof. induction 1; cbn; lia. Qed.
Lemma sub_full {A} (l l' : list A) : sub l l' -> (length l' <= length l)%nat -> l = l'.
Proof. induction 1 as [|x l l' S IH|x l l' S IH]; cbn; intros L; [reflexivity| |f_equal; apply IH; lia]. apply sub_length in S. lia. Qed.
Lemma sub_SS {A} (R : A -> A -> Prop) l x y : StronglySorted R l -> sub [x; y] l -> R x y.
Proof.
  induction 1 as [|z l S IH F]; intros X; inversion X; subst; auto. rewrite Forall_forall in F. apply F. eapply sub_In; [eassumption|now left].
Qed.
Lemma sub_pair {A} (l : list A) x y : x <> y -> In x l -> In y l -> sub [x; y] l \/ sub [y; x] l.
Proof.
  intros N. induction l as [|z l IH]; [intros []|]. intros [->|X] [Y|Y]; subst.
  - congruence.
  - left. apply sub_take. now apply sub_one.
  - right. apply sub_take. now apply sub_one.
  - destruct (IH X Y); [left|right]; now apply sub_skip.
Qed.
Lemma sub_not_both {A} (l : list A) x y : NoDup l -> sub [x; y] l -> ~ sub [y; x] l.
Proof.
  induction 1 as [|z l Z N IH]; intros X Y; [inversion X|].
  inversion X as [|? ? ? X1|? ? ? X1]; subst; inversion Y as [|? ? ? Y1|? ? ? Y1]; subst.
  - exact (IH X1 Y1).
  - apply Z. apply (sub_In _ _ _ X1). cbn. auto.
  - apply Z. apply (sub_In _ _ _ Y1). cbn. auto.
  - apply Z. apply (sub_In _ _ _ X1). cbn. auto.
Qed.
Lemma sub_sorted_snoc {A} (R : A -> A -> Prop) L l y : (forall x, ~ R x x) -> (forall x z u, R x z -> R z u -> R x u) ->
  sub L l -> StronglySorted R l -> In y l -> (forall x, In x L -> R x y) -> sub (L ++ [y]) l.
Proof.
  intros Ir Tr. induction 1 as [|x L l S IH|x L l S IH]; intros SS Y H; cbn.
  - destruct Y.
  - inversion SS as [|? ? S1 F]; subst. destruct Y as [->|Y]; [|apply sub_skip; auto]. rewrite Forall_forall in F. destruct L as [|z L].
    + apply sub_take, sub_nil_l.
    + exfalso. apply (Ir y), (Tr y z y); [|apply H; now left]. apply F. eapply sub_In; [exact S|now left].
  - inversion SS as [|? ? S1 F]; subst. destruct Y as [->|Y]; [destruct (Ir y); apply H; now left|]. apply sub_take. apply IH; auto. intros z Z. apply H. now right.
Qed.
Lemma sub_unmap {A B} (f : A -> B) h l : NoDup (map f l) -> incl h l -> sub (map f h) (map f l) -> sub h l.
Proof.
  revert h. induction l as [|s l IH]; intros h N I X.
  - destruct h as [|z h]; [constructor|]. destruct (I z (or_introl eq_refl)).
  - cbn in N, X. inversion N as [|? ? N1 N2]; subst. inversion X as [|? ? ? X1|? ? ? X1 E]; subst.
    + apply sub_skip. apply IH; auto. intros z Z. destruct (I z Z) as [->|Y]; auto. exfalso. apply N1. apply (sub_In _ _ _ X1). now apply in_map.
    + destruct h as [|z h]; [discriminate|]. cbn in E. injection E as E1 E2. subst l0.
      assert (z = s) as ->. { destruct (I z (or_introl eq_refl)) as [->|Y]; auto. exfalso. apply N1. rewrite E1. now apply in_map. }
      apply sub_take. apply IH; auto. intros u U. destruct (I u (or_intror U)) as [->|Y]; auto. exfalso. apply N1. apply (sub_In _ _ _ X1). now apply in_map.
Qed.
Lemma before_total a b : a = b \/ before a b \/ before b a.
Proof.
  unfold before. destruct (lex_leb b a) eqn:X; [|auto]. destruct (lex_leb a b) eqn:Y; [|auto]. left. now apply lex_leb_antisym.
Qed.

(** * The way of the messages to one receiver *)

Definition hp (from : bytes) (l : list (bytes * DiskMessage)) : list bytes :=
  map (fun x => DiskMessage_Payload (snd x)) (filter (fun x => from_him from (snd x)) l).
Lemma hp_app from l l' : hp from (l ++ l') = hp from l ++ hp from l'.
Proof. unfold hp. now rewrite filter_app, map_app. Qed.
Lemma hp_In from l ct : In ct (hp from l) <-> exists n d, In (n, d) l /\ from_him from d = true /\ DiskMessage_Payload d = ct.
Proof.
  unfold hp. rewrite in_map_iff. split.
  - intros ([n d] & X & Y). apply filter_In in Y as [Y Z]. exists n, d. auto.
  - intros (n & d & X & Y & Z). exists (n, d). split; auto. apply filter_In. auto.
Qed.
Lemma hp_sub from l l' : sub l l' -> sub (hp from l) (hp from l').
Proof. intros X. apply sub_map. now apply sub_filter2. Qed.
Lemma hp_true from n d : from_him from d = true -> hp from [(n, d)] = [DiskMessage_Payload d].
Proof. unfold hp. cbn. now intros ->. Qed.
Lemma hp_false from n d : from_him from d = false -> hp from [(n, d)] = [].
Proof. unfold hp. cbn. now intros ->. Qed.

(** What is between the sender's connection and the receiver's mailbox. *)
Definition within (from : bytes) (m : mail) (fly : list bytes) : list bytes := hp from (m_done m) ++ hp from (m_pending m) ++ fly.
Record path (from : bytes) (m : mail) (fly cts lost : list bytes) : Prop := {
  pt_reach : reachable careful m;
  pt_part : m_partial m = [];
  pt_sub : sub (within from m fly) cts;
  pt_one : (length (hp from (m_pending m)) <= 1)%nat;
  pt_where : forall ct, In ct cts -> In ct lost \/ In ct fly \/ In ct (hp from (m_pending m)) \/ In ct (hp from (m_done m));
  pt_nodup : NoDup cts;
  pt_lost : forall ct, In ct lost -> In ct cts /\ ~ In ct (within from m fly)
}.
Lemma sub_NoDup {A} (l l' : list A) : sub l l' -> NoDup l' -> NoDup l.
Proof.
  induction 1; intros N; auto; inversion N; subst; auto. constructor; auto. intros X. eapply sub_In in X; eauto.
Qed.

Lemma path_start from : path from empty_mail [] [] [].
Proof. constructor; cbn; auto; try tauto; [exists []; split; [constructor|reflexivity]|constructor|constructor]. Qed.
Lemma path_say from m fly cts lost ct : ~ In ct cts -> path from m fly cts lost -> path from m (fly ++ [ct]) (cts ++ [ct]) lost.
Proof.
  intros Nw [P1 P2 P3 P4 P5 P6 P7]. constructor; auto.
  - unfold within. rewrite !app_assoc. apply sub_app; [rewrite <- app_assoc; exact P3|apply sub_refl].
  - intros c X. apply in_app_iff in X as [X|[<-|[]]].
    + destruct (P5 c X) as [Y|[Y|[Y|Y]]]; auto. right. left. apply in_or_app. now left.
    + right. left. apply in_or_app. right. now left.
  - apply (Permutation_NoDup (l := ct :: cts)); [apply Permutation_cons_append|now constructor].
  - intros c X. destruct (P7 c X) as [Y1 Y2]. split; [apply in_or_app; now left|]. intros Z. unfold within in Z. rewrite !app_assoc in Z.
    apply in_app_iff in Z as [Z|[<-|[]]]; [|tauto]. rewrite <- app_assoc in Z. tauto.
Qed.
Lemma path_lose from m fly cts lost fly' gone : path from m fly cts lost -> sub fly' fly -> Permutation fly (fly' ++ gone) ->
  path from m fly' cts (lost ++ gone).
Proof.
  intros [P1 P2 P3 P4 P5 P6 P7] S H. constructor; auto.
  - eapply sub_trans; [|exact P3]. unfold within. repeat apply sub_app; auto using sub_refl.
  - intros c X. rewrite in_app_iff. destruct (P5 c X) as [Y|[Y|[Y|Y]]]; auto. apply (Permutation_in c H), in_app_iff in Y as [Y|Y]; auto.
  - intros c X. apply in_app_iff in X as [X|X].
    + destruct (P7 c X) as [Y1 Y2]. split; auto. intros Z. apply Y2. unfold within in *. rewrite !in_app_iff in *. destruct Z as [Z|[Z|Z]]; auto.
      right. right. eapply sub_In; eauto.
    + assert (Yf : In c fly). { apply (Permutation_in c (Permutation_sym H)). apply in_or_app. now right. }
      assert (ND : NoDup (within from m fly)) by (eapply sub_NoDup; eauto). split.
      * apply (sub_In _ _ _ P3). unfold within. rewrite !in_app_iff. auto.
      * unfold within in *. rewrite app_assoc in *. pose proof (NoDup_app_r _ _ ND) as NF. intros Z. apply in_app_iff in Z as [Z|Z].
        -- exact (NoDup_app_not _ _ c ND Z Yf).
        -- apply (Permutation_NoDup H) in NF. exact (NoDup_app_not _ _ c NF Z X).
Qed.
Lemma path_arrive from m m' ct rest cts lost n at_ : path from m (ct :: rest) cts lost ->
  (forall y, In y (m_pending m) -> from_him from (snd y) = false) ->
  DiskMessage_ok 0 (mkDiskMessage from at_ ct false) ->
  exec careful m (ACheck n (mkDiskMessage from at_ ct false)) = Some m' -> path from m' rest cts lost.
Proof.
  intros [P1 P2 P3 P4 P5 P6 P7] N O E. destruct (fun H => exec_moved careful m _ m' H E) as (X1 & X2 & X3); [reflexivity|].
  assert (H0 : hp from (m_pending m) = []).
  { destruct (hp from (m_pending m)) as [|c l] eqn:Q; auto. assert (Z : In c (hp from (m_pending m))) by (rewrite Q; now left).
    apply hp_In in Z as (n0 & d0 & Z1 & Z2 & _). apply N in Z1. cbn in Z1. congruence. }
  assert (Hf : from_him from (mkDiskMessage from at_ ct false) = true) by (unfold from_him; cbn; now rewrite eqb_refl).
  assert (H1 : hp from (m_pending m') = [ct]). { rewrite X3, hp_app, H0, hp_true by exact Hf. reflexivity. }
  assert (H2 : within from m' rest = within from m (ct :: rest)). { unfold within. rewrite X2, H1, H0. reflexivity. }
  constructor; auto; rewrite ?H2; auto.
  - eapply reach_step; [exact P1| |exact E]. exact O.
  - congruence.
  - rewrite H1. cbn. lia.
  - intros c X. rewrite X2, H1. destruct (P5 c X) as [Y|[[Y|Y]|[Y|Y]]]; auto; [right; right; left; left; auto|]. rewrite H0 in Y. destruct Y.
Qed.
Lemma drop_split {A} i (l : list A) x : nth_error l i = Some x -> exists l1 l2, l = l1 ++ x :: l2 /\ drop i l = l1 ++ l2.
Proof.
  intros H. apply nth_error_split in H as (l1 & l2 & -> & <-). exists l1, l2. split; auto. unfold drop.
  rewrite firstn_app, firstn_all, Nat.sub_diag. cbn [firstn]. rewrite app_nil_r. f_equal.
  rewrite skipn_app, skipn_all2 by lia. replace (S (length l1) - length l1)%nat with 1%nat by lia. reflexivity.
Qed.
Lemma path_moved from m m' fly cts lost : path from m fly cts lost -> reachable careful m' -> m_partial m' = m_partial m -> moved m m' ->
  path from m' fly cts (lost ++ vanished from m m').
Proof.
  intros [P1 P2 P3 P4 P5 P6 P7] R' X1 X2.
  assert (Keep : forall n d, In (n, d) (m_pending m) -> from_him from d = true -> ~ In n (map fst (m_pending m')) -> ~ In n (map fst (m_done m')) -> In (DiskMessage_Payload d) (vanished from m m')).
  { intros n d X Y Q1 Q2. apply in_map_iff. exists (n, d). split; auto. apply filter_In. split; auto. cbn. rewrite Y.
    destruct (mem n (map fst (m_pending m'))) eqn:Z1; [apply mem_In in Z1; tauto|]. destruct (mem n (map fst (m_done m'))) eqn:Z2; [apply mem_In in Z2; tauto|]. reflexivity. }
  assert (Back : forall c, In c (vanished from m m') -> exists n d, In (n, d) (m_pending m) /\ from_him from d = true /\ DiskMessage_Payload d = c /\
    ~ In n (map fst (m_pending m')) /\ ~ In n (map fst (m_done m'))).
  { intros c X. apply in_map_iff in X as ([n d] & <- & X). apply filter_In in X as [X Y]. cbn in Y. apply andb_prop in Y as [Y Y3]. apply andb_prop in Y as [Y1 Y2].
    exists n, d. repeat split; auto; intros Z; apply mem_In in Z; rewrite Z in *; discriminate. }
  assert (ND : NoDup (within from m fly)) by (eapply sub_NoDup; eauto).
  assert (Pend : forall c, In c (hp from (m_pending m)) -> In c cts /\ ~ In c (hp from (m_done m)) /\ ~ In c fly).
  { intros c X. split; [apply (sub_In _ _ _ P3); unfold within; rewrite !in_app_iff; auto|]. unfold within in ND. split.
    - intros Z. apply (NoDup_app_not _ _ c ND Z). apply in_or_app. now left.
    - intros Z. apply NoDup_app_r in ND. exact (NoDup_app_not _ _ c ND X Z). }
  assert (Lost : (forall c, In c (within from m' fly) -> In c (within from m fly)) -> (forall c, In c (vanished from m m') -> In c (hp from (m_pending m)) /\ ~ In c (within from m' fly)) ->
    forall c, In c (lost ++ vanished from m m') -> In c cts /\ ~ In c (within from m' fly)).
  { intros H1 H2 c X. apply in_app_iff in X as [X|X].
    - destruct (P7 c X) as [Y1 Y2]. split; auto.
    - destruct (H2 c X) as [Y1 Y2]. destruct (Pend c Y1). auto. }
  assert (C : clock careful <> AnyTime) by discriminate. pose proof (inv_disk_reach careful m C P1) as D0.
  destruct X2 as [(Q1 & Q2)|[(i & n & d & Q1 & Q2 & Q3)|(Q1 & Q2)]].
  - assert (EW : within from m' fly = within from m fly) by (unfold within; now rewrite Q1, Q2).
    constructor; try congruence; rewrite ?EW, ?Q1, ?Q2; auto.
    + intros c X. rewrite in_app_iff. destruct (P5 c X) as [Y|[Y|[Y|Y]]]; auto.
    + rewrite <- EW. apply Lost; [now rewrite EW|]. intros c X. exfalso. destruct (Back c X) as (n & d & Y1 & _ & _ & Y2 & _). apply Y2. rewrite Q2. apply in_map_iff. now exists (n, d).
  - destruct (pending_fresh careful m i n d C D0 Q1) as (F1 & F2 & _). unfold used in F1. rewrite P2, app_nil_r in F1.
    destruct (drop_split _ _ _ Q1) as (l1 & l2 & E1 & E2).
    assert (Only : forall n0 d0, In (n0, d0) (m_pending m) -> ~ In n0 (map fst (m_pending m')) -> (n0, d0) = (n, d)).
    { intros n0 d0 X Y. rewrite E1 in X. rewrite Q2, E2, map_app, in_app_iff in Y. apply in_app_iff in X as [X|[X|X]]; auto; exfalso; apply Y; [left|right]; apply in_map_iff; now exists (n0, d0). }
    assert (EP : hp from (m_pending m) = hp from l1 ++ hp from [(n, d)] ++ hp from l2) by (rewrite E1; change ((n, d) :: l2) with ([(n, d)] ++ l2); now rewrite !hp_app).
    assert (EP' : hp from (m_pending m') = hp from l1 ++ hp from l2) by (rewrite Q2, E2; apply hp_app).
    destruct (from_him from d) eqn:Hd.
    + rewrite (hp_true _ n _ Hd) in EP. rewrite EP, !app_length in P4. cbn [length] in P4.
      assert (Z1 : hp from l1 = []) by (destruct (hp from l1); [reflexivity|cbn in P4; lia]).
      assert (Z2 : hp from l2 = []) by (destruct (hp from l2); [reflexivity|cbn in P4; lia]).
      rewrite Z1, Z2 in EP, EP'. cbn [app] in EP, EP'. destruct Q3 as [Q3|Q3].
      * assert (EW : within from m' fly = within from m fly). { unfold within. rewrite EP', Q3, EP, hp_app, (hp_true _ n _ Hd). cbn [app]. now rewrite <- app_assoc. }
        constructor; auto; try congruence; rewrite ?EW; auto.
        -- rewrite EP'. cbn. lia.
        -- rewrite EP', Q3, hp_app, (hp_true _ n _ Hd). rewrite EP in P5. intros c X. rewrite !in_app_iff. destruct (P5 c X) as [Y|[Y|[Y|Y]]]; auto.
        -- rewrite <- EW. apply Lost; [now rewrite EW|]. intros c X. exfalso. destruct (Back c X) as (n0 & d0 & Y1 & _ & _ & Y2 & Y3).
           pose proof (Only n0 d0 Y1 Y2) as [= -> ->]. apply Y3. rewrite Q3, map_app. apply in_or_app. right. now left.
      * assert (Sw : sub (within from m' fly) (within from m fly)). { unfold within. rewrite EP', Q3. apply sub_app; [apply sub_refl|apply sub_app_r]. }
        constructor; auto; try congruence.
        -- eapply sub_trans; [exact Sw|exact P3].
        -- rewrite EP'. cbn. lia.
        -- rewrite EP', Q3. rewrite EP in P5. intros c X. rewrite !in_app_iff. destruct (P5 c X) as [Y|[Y|[[<-|[]]|Y]]]; auto. left. right. apply (Keep n d); auto.
           ++ now apply nth_error_In in Q1.
           ++ now rewrite Q2.
           ++ now rewrite Q3.
        -- apply Lost; [intros c; now apply sub_In|]. intros c X. destruct (Back c X) as (n0 & d0 & Y1 & Y4 & <- & Y2 & Y3).
           assert (Ip : In (DiskMessage_Payload d0) (hp from (m_pending m))) by (apply hp_In; exists n0, d0; auto). split; auto.
           destruct (Pend _ Ip) as (_ & Z3 & Z4). unfold within. rewrite EP', Q3. cbn [app]. rewrite in_app_iff. tauto.
    + rewrite (hp_false _ n _ Hd) in EP. cbn [app] in EP. rewrite <- EP in EP'.
      assert (ED : hp from (m_done m') = hp from (m_done m)). { destruct Q3 as [-> | ->]; auto. now rewrite hp_app, (hp_false _ n _ Hd), app_nil_r. }
      assert (EW : within from m' fly = within from m fly) by (unfold within; now rewrite EP', ED).
      constructor; auto; try congruence; rewrite ?EW, ?EP', ?ED; auto.
      * intros c X. rewrite in_app_iff. destruct (P5 c X) as [Y|[Y|[Y|Y]]]; auto.
      * rewrite <- EW. apply Lost; [now rewrite EW|]. intros c X. exfalso. destruct (Back c X) as (n0 & d0 & Y1 & Y4 & <- & Y2 & Y3).
        pose proof (Only n0 d0 Y1 Y2) as [= -> ->]. congruence.
  - assert (Sw : sub (within from m' fly) (within from m fly)). { unfold within. rewrite Q1, Q2. cbn [hp filter map app]. apply sub_app; [apply sub_refl|apply sub_app_r]. }
    constructor; auto; try congruence.
    + eapply sub_trans; [exact Sw|exact P3].
    + rewrite Q2. cbn. lia.
    + intros c X. rewrite in_app_iff, Q1. destruct (P5 c X) as [Y|[Y|[Y|Y]]]; auto. apply hp_In in Y as (n & d & Y1 & Y2 & <-). left. right.
      apply (Keep n d); auto; [rewrite Q2; intros []|]. rewrite Q1. intros Z. apply (NoDup_app_not _ _ n (id_names _ D0)).
      * unfold used. apply in_or_app. now left.
      * apply in_map_iff. now exists (n, d).
    + apply Lost; [intros c; now apply sub_In|]. intros c X. destruct (Back c X) as (n0 & d0 & Y1 & Y4 & <- & Y2 & Y3).
      assert (Ip : In (DiskMessage_Payload d0) (hp from (m_pending m))) by (apply hp_In; exists n0, d0; auto). split; auto.
      destruct (Pend _ Ip) as (_ & Z3 & Z4). unfold within. rewrite Q1, Q2. cbn [hp filter map app]. rewrite in_app_iff. tauto.
Qed.
Lemma own_ok from up act : own_action from up act -> act_ok act /\ act <> AReceive /\ cutting act = false.
Proof.
  intros H. destruct act; cbn in H; try destruct part; try tauto;
  (split; [first [exact (proj1 H) | exact I]|split; [discriminate|reflexivity]]).
Qed.
Lemma path_post from m m' fly cts lost act up : path from m fly cts lost -> own_action from up act -> exec careful m act = Some m' ->
  path from m' fly cts (lost ++ vanished from m m').
Proof.
  intros P O E. destruct (own_ok _ _ _ O) as (Ok & _ & NC). destruct (exec_moved careful m act m' NC E) as (X1 & X2).
  assert (R' : reachable careful m') by (eapply reach_step; eauto using pt_reach).
  destruct act as [n0 d0| | | | | | | | | | | | | |]; try (apply path_moved; now auto).
  destruct X2 as [Q1 Q2]. destruct O as [_ O]. destruct P as [P1 P2 P3 P4 P5 P6 P7].
  assert (EP : hp from (m_pending m') = hp from (m_pending m)) by (now rewrite Q2, hp_app, (hp_false _ _ _ O), app_nil_r).
  assert (EW : within from m' fly = within from m fly) by (unfold within; now rewrite EP, Q1).
  assert (EV : vanished from m m' = []).
  { unfold vanished. rewrite Q2. destruct (filter _ _) as [|[n d] l] eqn:Z; [reflexivity|]. exfalso.
    assert (Y : In (n, d) ((n, d) :: l)) by now left. rewrite <- Z in Y. apply filter_In in Y as [Y1 Y2]. cbn [fst snd] in Y2.
    apply andb_prop in Y2 as [Y2 _]. apply andb_prop in Y2 as [_ Y2]. rewrite map_app in Y2.
    assert (Y3 : mem n (map fst (m_pending m) ++ map fst [(n0, d0)]) = true). { apply mem_In. apply in_or_app. left. apply in_map_iff. now exists (n, d). }
    rewrite Y3 in Y2. discriminate. }
  rewrite EV, app_nil_r. constructor; try congruence; rewrite ?EW, ?EP, ?Q1; auto.
Qed.
Lemma path_receive from m m' fly cts lost : path from m fly cts lost -> exec careful m AReceive = Some m' -> path from m' fly cts lost.
Proof.
  intros P E. destruct (fun H => exec_moved careful m _ m' H E) as (X1 & _); [reflexivity|].
  assert (R' : reachable careful m') by (eapply reach_step; eauto using pt_reach; exact I). destruct P as [P1 P2 P3 P4 P5 P6 P7].
  cbn [exec] in E. destruct (m_sess m) as [s|]; [|discriminate]. destruct (s_wire s); [discriminate|]. injection E as <-. now constructor.
Qed.

(** * What the receiver took, and in which order *)

Section Order.
Variable T : bytes -> Prop.
Variable from : bytes.

Record ord (m : mail) (up : bool) (heard : list bytes) : Prop := {
  o_rcvd : up = true -> forall s p, m_sess m = Some s -> In p (s_rcvd s) -> from_him from (p_msg p) = true -> T (DiskMessage_Payload (p_msg p));
  o_good : inv_good (fun p => from_him from (p_msg p) = true -> T (DiskMessage_Payload (p_msg p))) m;
  o_got : forall q n d, In q (m_got m) -> In (n, d) (m_done m) -> from_him from d = true -> before n (p_name q) -> T (DiskMessage_Payload d);
  o_sub : exists L, sub L (m_done m) /\ map (fun x => DiskMessage_Payload (snd x)) L = heard /\
    forall n d, In (n, d) L -> from_him from d = true /\ In n (map p_name (m_got m))
}.
End Order.

Lemma good_mono (P Q : pushed -> Prop) m : (forall p, P p -> Q p) -> inv_good P m -> inv_good Q m.
Proof. intros H [G1 G2 G3]. constructor; eauto. Qed.
Lemma ord_mono (T T' : bytes -> Prop) from m up heard : (forall c, T c -> T' c) -> ord T from m up heard -> ord T' from m up heard.
Proof. intros H [O1 O2 O3 O4]. constructor; eauto. eapply good_mono; [|exact O2]. cbn. auto. Qed.
Lemma ord_start T from : ord T from empty_mail true [].
Proof.
  constructor; cbn; try discriminate; try tauto.
  - constructor; cbn; try tauto; discriminate.
  - exists []. repeat split; try constructor; destruct H.
Qed.
Lemma ord_down T from m up heard : ord T from m up heard -> ord T from m false heard.
Proof. intros [O1 O2 O3 O4]. constructor; auto. discriminate. Qed.
Lemma ord_restart T from m up up' heard : m_sess m = None -> ord T from m up heard -> ord T from m up' heard.
Proof. intros S [O1 O2 O3 O4]. constructor; auto. intros _ s p X. congruence. Qed.

(** Any action but the receipt of a message. *)
Lemma ord_act T from m m' up heard act : reachable careful m -> m_partial m = [] -> act_ok act -> act <> AReceive -> cutting act = false ->
  (forall t, act = AAck t -> up = true) -> exec careful m act = Some m' -> ord T from m up heard -> ord T from m' up heard.
Proof.
  intros R Pa Ok NR NC Ack E [O1 O2 O3 O4]. pose proof (exec_trans _ _ _ _ Ok E) as Tr. pose proof (exec_got _ _ _ _ Ok NR E) as G.
  assert (C : clock careful <> AnyTime) by discriminate. assert (R' : reachable careful m') by (eapply reach_step; eauto).
  assert (Dn : sub (m_done m) (m_done m') /\ forall n d, In (n, d) (m_done m') -> In (n, d) (m_done m) \/ forall x, In x (map fst (m_done m)) -> before x n).
  { destruct (exec_moved _ _ _ _ NC E) as (X1 & X2).
    assert (Sm : m_done m' = m_done m -> sub (m_done m) (m_done m') /\ forall n d, In (n, d) (m_done m') -> In (n, d) (m_done m) \/ forall x, In x (map fst (m_done m)) -> before x n).
    { intros ->. split; [apply sub_refl|auto]. }
    assert (Mv : moved m m' -> sub (m_done m) (m_done m') /\ forall n d, In (n, d) (m_done m') -> In (n, d) (m_done m) \/ forall x, In x (map fst (m_done m)) -> before x n).
    { intros [(Q1 & _)|[(i & n & d & _ & _ & [Q|Q])|(Q1 & _)]]; auto. rewrite Q. split; [apply sub_app_l|].
      intros n' d' X. apply in_app_iff in X as [X|[[= <- <-]|[]]]; auto. right. intros x X.
      pose proof (done_sorted careful m' eq_refl R') as SS. rewrite Q, map_app in SS. cbn [map] in SS.
      apply (sub_SS before _ _ _ SS). apply sub_two; [exact X|now left]. }
    destruct act; auto. now apply Sm. }
  destruct Dn as [D1 D2]. constructor.
  - intros U s' p S I Hf. destruct (exec_rcvd _ _ _ _ _ NR E S) as [[X _]|(s & S0 & X & _)]; [rewrite X in I; destruct I|]. rewrite X in I. eauto.
  - eapply (good_trans careful); [reflexivity|exact R|exact Tr| |exact O2].
    assert (Dec : (exists t, act = AAck t) \/ forall t, act <> AAck t). { destruct act; try (right; discriminate). left. eauto. }
    destruct Dec as [[t ->]|NA].
    + left. intros s S p I. specialize (Ack t eq_refl). apply (recv_rcvd careful m R s S) in I. eauto.
    + right. intros s s' S S'. destruct (exec_rcvd _ _ _ _ _ NR E S') as [[X1 ->]|(s1 & S1 & _ & X)]; [cbn [exec] in E; rewrite S in E; discriminate|].
      rewrite S in S1. injection S1 as <-. auto.
  - rewrite G. intros q n d Q D Hf B. destruct (D2 n d D) as [X|X]; [eauto|]. exfalso.
    assert (Iq : In (p_name q) (map fst (m_done m))).
    { destruct (if_got _ (inv_flow_reach careful m C R) q Q) as [Y|Y]; [|rewrite Pa in Y; destruct Y]. apply in_map_iff. now exists (p_name q, p_msg q). }
    exact (before_irrefl _ (before_trans _ _ _ B (X _ Iq))).
  - destruct O4 as (L & L1 & L2 & L3). exists L. rewrite G. repeat split; auto; [eapply sub_trans; eauto| |]; intros; eapply L3; eauto.
Qed.

(** Whatever was delivered before a message on the way was taken. *)
Lemma earlier_taken T from m heard s p r n d : reachable careful m -> m_partial m = [] -> ord T from m true heard ->
  m_sess m = Some s -> s_wire s = p :: r -> In (n, d) (m_done m) -> from_him from d = true -> before n (p_name p) -> T (DiskMessage_Payload d).
Proof.
  intros R Pa O S W D Hf B. assert (C : clock careful <> AnyTime) by discriminate.
  pose proof (inv_disk_reach careful m C R) as Dk. pose proof (inv_flow_reach careful m C R) as Fl.
  destruct (kept_acked_reach careful m C R n d D) as [X|(q & Q1 & Q2 & Q3)].
  - assert (St : stored m n) by (unfold stored; congruence).
    pose proof (wire_complete careful m s p r n eq_refl R S W B St) as I. apply in_map_iff in I as (q & Q1 & Q2).
    assert (Y : In (p_name q, p_msg q) (m_done m)).
    { destruct (if_sess _ Fl s S (p_name q) (p_msg q)) as [Y|Y]; auto; [|rewrite Pa in Y; destruct Y].
      unfold travelling. rewrite !in_app_iff. do 9 right. apply in_map_iff. exists q. auto. }
    rewrite Q1 in Y. pose proof (done_fun m n _ _ Dk D Y) as ->. eapply (o_rcvd _ _ _ _ _ O); eauto.
  - subst d. apply (gd_acked _ _ (o_good _ _ _ _ _ O)); auto.
Qed.

(** A message reaches the client. *)
Lemma ord_recv (T T' : bytes -> Prop) from m m' heard heard' s p r up' : reachable careful m -> m_partial m = [] -> (forall c, T c -> T' c) ->
  m_sess m = Some s -> s_wire s = p :: r -> exec careful m AReceive = Some m' ->
  (up' = true -> from_him from (p_msg p) = true -> T' (DiskMessage_Payload (p_msg p))) ->
  (heard' = heard \/ (heard' = heard ++ [DiskMessage_Payload (p_msg p)] /\ from_him from (p_msg p) = true /\ ~ T (DiskMessage_Payload (p_msg p)) /\ forall c, In c heard -> T c)) ->
  ord T from m true heard -> ord T' from m' up' heard'.
Proof.
  intros R Pa M S W E Tp He O. assert (C : clock careful <> AnyTime) by discriminate.
  pose proof (inv_disk_reach careful m C R) as Dk. pose proof (inv_flow_reach careful m C R) as Fl.
  pose proof (fun n d => earlier_taken T from m heard s p r n d R Pa O S W) as Ea.
  assert (Dp : In (p_name p, p_msg p) (m_done m)).
  { destruct (if_sess _ Fl s S (p_name p) (p_msg p)) as [Y|Y]; auto; [|rewrite Pa in Y; destruct Y].
    unfold travelling. rewrite W, !in_app_iff. do 5 right. left. now left. }
  pose proof (exec_trans careful m AReceive m' I E) as Tr.
  assert (G' : inv_good (fun p => from_him from (p_msg p) = true -> T (DiskMessage_Payload (p_msg p))) m').
  { eapply (good_trans careful); [reflexivity|exact R|exact Tr| |apply (o_good _ _ _ _ _ O)]. right. intros s1 s' S1 S'.
    cbn [exec] in E. rewrite S, W in E. injection E as <-. rewrite S in S1. injection S1 as <-. injection S' as <-. ssimp. apply incl_refl. }
  cbn [exec] in E. rewrite S, W in E. injection E as <-. destruct O as [O1 O2 O3 O4]. constructor; ssimp.
  - intros U s1 q [= <-] Q Hf. ssimp. apply in_app_iff in Q as [Q|[<-|[]]]; eauto.
  - eapply good_mono; [|exact G']. cbn. auto.
  - intros q n d Q D Hf B. apply in_app_iff in Q as [Q|[<-|[]]]; [apply M; eauto|apply M; eauto].
  - destruct O4 as (L & L1 & L2 & L3). destruct He as [->|(-> & Hp & Nt & Th)].
    + exists L. repeat split; auto; [eapply L3; eauto|]. rewrite map_app. apply in_or_app. left. eapply L3; eauto.
    + exists (L ++ [(p_name p, p_msg p)]). split; [|split].
      * apply (sub_sorted_snoc (fun x y => before (fst x) (fst y))); auto.
        -- intros x. apply before_irrefl.
        -- intros x y z. apply before_trans.
        -- pose proof (done_sorted careful m eq_refl R) as SS. clear - SS. induction (m_done m) as [|x l IH]; [constructor|]. cbn in SS. inversion SS as [|? ? S1 F]; subst.
           constructor; auto. rewrite Forall_forall in *. intros y Y. apply F. now apply in_map.
        -- intros [n d] X. cbn. destruct (L3 n d X) as [Hd Hn]. apply in_map_iff in Hn as (q & Q1 & Q2).
           destruct (before_total n (p_name p)) as [->|[B|B]]; auto; exfalso; apply Nt.
           ++ assert (d = p_msg p) as <-. { apply (done_fun m (p_name p)); auto. eapply sub_In; eauto. }
              apply Th. rewrite <- L2. apply in_map_iff. now exists (p_name p, d).
           ++ rewrite <- Q1 in B. eapply O3; eauto.
      * rewrite map_app. now rewrite L2.
      * intros n d X. rewrite map_app, in_app_iff. apply in_app_iff in X as [X|[[= <- <-]|[]]]; [destruct (L3 n d X); auto|]. cbn. auto.
Qed.

(** * Everything together *)

Lemma set_other {A} (f : bool -> A) who v w : w <> who -> set f who v w = f w.
Proof. unfold set. destruct (Bool.eqb_spec w who); congruence. Qed.

Section Net.
Variable hmac : bytes -> bytes -> bytes.
Variable sha256 : bytes -> bytes.
Variable x25519 : bytes -> bytes -> option bytes.
Variable base : bytes -> bytes.
Variable seal : bytes -> bytes -> bytes -> bytes.
Variable unseal : bytes -> bytes -> bytes -> option bytes.
Variable xs : nat -> bytes.
Variable sk : bytes.
Variable E : nat.
Variables a b : ratchet.
Variables t0 t1 : Z.
Variable id : bool -> bytes.
Hypothesis ST : setting hmac sha256 x25519 base seal unseal xs sk E a b t0 t1.
Hypothesis KL : key_law seal unseal.
Hypothesis KD : keys_differ hmac sha256 x25519 base xs sk E.
Notation reach := (reach hmac sha256 x25519 base seal unseal xs a b t0 t1).
Notation memory := (memory hmac sha256 x25519 base seal unseal xs a b).
Notation conv := (conv hmac sha256 x25519 base seal unseal xs sk a b).
Notation nstep := (nstep hmac sha256 x25519 base seal unseal xs a b t0 t1 id).
Notation nruns := (nruns hmac sha256 x25519 base seal unseal xs a b t0 t1 id).
Notation log_of done := (w_log (memory done)).

Lemma lab_irrefl en : ~ lab_lt en en.
Proof. unfold lab_lt. lia. Qed.
Lemma lab_trans x y z : lab_lt x y -> lab_lt y z -> lab_lt x z.
Proof. unfold lab_lt. lia. Qed.

Lemma same_ct done en en' : conv done -> In en (log_of done) -> In en' (log_of done) -> en_ct en = en_ct en' -> en = en'.
Proof. intros V X Y Z. apply (li_nonce _ _ _ _ _ _ _ _ (iv_log _ _ _ _ _ _ _ _ (cv_inv _ _ _ _ _ _ _ _ _ _ _ V))); auto. now rewrite Z. Qed.

Lemma cts_nodup done w : conv done -> NoDup (map en_ct (ofw w (log_of done))).
Proof.
  intros V. pose proof (cv_sorted _ _ _ _ _ _ _ _ _ _ _ V w) as SS.
  assert (In1 : forall en, In en (ofw w (log_of done)) -> In en (log_of done)) by (intros en X; now apply ofw_In in X).
  induction SS as [|x l S IH F]; [constructor|]. cbn. constructor.
  - intros X. apply in_map_iff in X as (y & Y1 & Y2). assert (y = x).
    { apply (same_ct done); auto; apply In1; [now right|now left]. }
    subst y. rewrite Forall_forall in F. exact (lab_irrefl _ (F x Y2)).
  - apply IH. intros en X. apply In1. now right.
Qed.
Lemma cts_lt done w en en' : conv done -> In en (log_of done) -> en_from en = w -> In en' (log_of done) -> en_from en' = w ->
  (sub [en_ct en; en_ct en'] (map en_ct (ofw w (log_of done))) <-> lab_lt en en').
Proof.
  intros V X1 X2 Y1 Y2. pose proof (cv_sorted _ _ _ _ _ _ _ _ _ _ _ V w) as SS. pose proof (cts_nodup done w V) as ND.
  assert (Ix : In en (ofw w (log_of done))) by (apply ofw_In; auto). assert (Iy : In en' (ofw w (log_of done))) by (apply ofw_In; auto).
  split; intros H.
  - assert (Ne : en <> en').
    { intros <-. apply (sub_not_both _ _ _ ND H). exact H. }
    destruct (sub_pair _ _ _ Ne Ix Iy) as [Q|Q]; [exact (sub_SS _ _ _ _ SS Q)|]. exfalso. apply (sub_not_both _ _ _ ND H). exact (sub_map en_ct _ _ Q).
  - assert (Ne : en <> en') by (intros <-; exact (lab_irrefl _ H)).
    destruct (sub_pair _ _ _ Ne Ix Iy) as [Q|Q]; [exact (sub_map en_ct _ _ Q)|]. exfalso. exact (lab_irrefl _ (lab_trans _ _ _ H (sub_SS _ _ _ _ SS Q))).
Qed.

Record whole (x : net) : Prop := {
  wh_conv : conv (n_done x);
  wh_reach : reach (n_done x) (n_dir x);
  wh_said : forall w, n_said x w = map (fun en => (en_plain en, en_ct en)) (ofw w (log_of (n_done x)));
  wh_path : forall w, path (id (negb w)) (n_box x w) (n_fly x (negb w)) (map snd (n_said x (negb w))) (n_lost x (negb w));
  wh_taken : forall w ct, taken (n_done x) w ct <-> In ct (map snd (n_heard x w)) \/ In ct (n_gone x w);
  wh_got : forall w ct, taken (n_done x) w ct -> exists q, In q (m_got (n_box x w)) /\ from_him (id (negb w)) (p_msg q) = true /\ DiskMessage_Payload (p_msg q) = ct;
  wh_heard : forall w, incl (n_heard x w) (n_said x (negb w));
  wh_once : forall w, NoDup (map snd (n_heard x w) ++ n_gone x w);
  wh_ord : forall w, (length (n_lost x (negb w)) <= 80)%nat ->
    ord (taken (n_done x) w) (id (negb w)) (n_box x w) (n_up x w) (map snd (n_heard x w))
}.

Lemma said_cts x w : whole x -> map snd (n_said x w) = map en_ct (ofw w (log_of (n_done x))).
Proof. intros W. rewrite (wh_said _ W), map_map. reflexivity. Qed.

Lemma wire_entry x who s p r : whole x -> m_sess (n_box x who) = Some s -> s_wire s = p :: r -> from_him (id (negb who)) (p_msg p) = true ->
  In (p_name p, p_msg p) (m_done (n_box x who)) /\
  exists en, In en (log_of (n_done x)) /\ en_from en = negb who /\ en_ct en = DiskMessage_Payload (p_msg p).
Proof.
  intros W S Wi Hf. destruct (wh_path _ W who) as [P1 P2 P3 P4 P5 P6 P7].
  assert (Dp : In (p_name p, p_msg p) (m_done (n_box x who))).
  { pose proof (inv_flow_reach careful (n_box x who) ltac:(discriminate) P1) as Fl.
    destruct (if_sess _ Fl s S (p_name p) (p_msg p)) as [Y|Y]; auto; [|rewrite P2 in Y; destruct Y].
    unfold travelling. rewrite Wi, !in_app_iff. do 5 right. left. now left. }
  split; auto. assert (X : In (DiskMessage_Payload (p_msg p)) (map snd (n_said x (negb who)))).
  { apply (sub_In _ _ _ P3). apply in_or_app. left. apply hp_In. exists (p_name p), (p_msg p). auto. }
  rewrite (said_cts _ _ W) in X. apply in_map_iff in X as (en & X1 & X2). apply ofw_In in X2 as [X2 X3]. exists en. auto.
Qed.

(** Two messages that were delivered, by their names and by their labels. *)
Lemma done_lt x w n d n' d' en en' : whole x -> In (n, d) (m_done (n_box x w)) -> In (n', d') (m_done (n_box x w)) ->
  from_him (id (negb w)) d = true -> from_him (id (negb w)) d' = true ->
  In en (log_of (n_done x)) -> en_from en = negb w -> en_ct en = DiskMessage_Payload d ->
  In en' (log_of (n_done x)) -> en_from en' = negb w -> en_ct en' = DiskMessage_Payload d' ->
  before n n' -> lab_lt en en'.
Proof.
  intros W D D' H H' X1 X2 X3 Y1 Y2 Y3 B. destruct (wh_path _ W w) as [P1 P2 P3 P4 P5 P6 P7].
  apply (cts_lt (n_done x) (negb w)); auto; [apply (wh_conv _ W)|]. rewrite <- (said_cts _ _ W).
  apply (sub_trans _ (hp (id (negb w)) (m_done (n_box x w)))); [|eapply sub_trans; [apply sub_app_l|exact P3]].
  rewrite X3, Y3. change [DiskMessage_Payload d; DiskMessage_Payload d'] with (map (fun x : bytes * DiskMessage => DiskMessage_Payload (snd x)) [(n, d); (n', d')]).
  apply sub_map. replace [(n, d); (n', d')] with (filter (fun x : bytes * DiskMessage => from_him (id (negb w)) (snd x)) [(n, d); (n', d')]) by (cbn; now rewrite H, H').
  apply sub_filter2. assert (Ne : (n, d) <> (n', d')) by (intros [= <- <-]; exact (before_irrefl _ B)).
  destruct (sub_pair _ _ _ Ne D D') as [Q|Q]; auto. exfalso.
  pose proof (done_sorted careful (n_box x w) eq_refl P1) as SS. apply (sub_map fst) in Q. apply (sub_SS _ _ _ _ SS) in Q.
  exact (before_irrefl _ (before_trans _ _ _ B Q)).
Qed.

Lemma refused_taken x who s p r en : whole x -> small E (n_done x) -> (length (n_lost x (negb who)) <= 80)%nat -> n_up x who = true ->
  m_sess (n_box x who) = Some s -> s_wire s = p :: r -> from_him (id (negb who)) (p_msg p) = true ->
  In en (log_of (n_done x)) -> en_from en = negb who -> en_ct en = DiskMessage_Payload (p_msg p) ->
  snd (ideal_recv (w_i (memory (n_done x)) who) (en_label en) (en_plain en)) = false -> taken (n_done x) who (en_ct en).
Proof.
  intros W Sm Lo Up S Wi Hf X1 X2 X3 Rf. destruct (wire_entry x who s p r W S Wi Hf) as [Dp _].
  pose proof (wh_ord _ W who Lo) as O. rewrite Up in O. destruct (wh_path _ W who) as [P1 P2 P3 P4 P5 P6 P7]. pose proof (wh_conv _ W) as V.
  pose proof (inv_disk_reach careful (n_box x who) ltac:(discriminate) P1) as Dk. pose proof (inv_flow_reach careful (n_box x who) ltac:(discriminate) P1) as Fl.
  destruct (in_dec (list_eq_dec N.eq_dec) (en_ct en) (map snd (n_heard x who) ++ n_gone x who)) as [Y|NT].
  { apply (wh_taken _ W). now apply in_app_iff in Y. }
  assert (NT' : ~ taken (n_done x) who (en_ct en)) by (rewrite (wh_taken _ W), <- in_app_iff; exact NT).
  apply (no_refusal hmac sha256 x25519 base seal unseal xs sk E a b t0 t1 ST (n_done x) who en (n_lost x (negb who))); auto.
  - intros en' Y1 Y2 Lt. assert (Ic : In (en_ct en') (map snd (n_said x (negb who)))).
    { rewrite (said_cts _ _ W). apply in_map. now apply ofw_In. }
    assert (Sq : sub [en_ct en'; en_ct en] (map snd (n_said x (negb who)))).
    { rewrite (said_cts _ _ W). now apply (cts_lt (n_done x) (negb who)). }
    assert (ND : NoDup (map snd (n_said x (negb who)))) by (rewrite (said_cts _ _ W); now apply cts_nodup).
    assert (Late : ~ In (en_ct en') (hp (id (negb who)) (m_pending (n_box x who)) ++ n_fly x (negb who))).
    { intros Z. apply (sub_not_both _ _ _ ND Sq). eapply sub_trans; [|exact P3]. apply sub_two; auto. apply hp_In. exists (p_name p), (p_msg p). auto. }
    rewrite in_app_iff in Late. destruct (P5 _ Ic) as [Z|[Z|[Z|Z]]]; auto; try tauto. left.
    apply hp_In in Z as (n & d & Z1 & Z2 & Z3).
    destruct (before_total n (p_name p)) as [->|[B|B]].
    + pose proof (done_fun _ _ _ _ Dk Z1 Dp) as ->. exfalso. assert (en' = en); [|subst; exact (lab_irrefl _ Lt)]. apply (same_ct (n_done x)); auto. congruence.
    + rewrite <- Z3. eapply earlier_taken; eauto.
    + exfalso. apply (lab_irrefl en). eapply lab_trans; [|exact Lt]. eapply (done_lt x who (p_name p) (p_msg p) n d); eauto.
  - intros en' Y1 Y2 Tk. destruct (wh_got _ W _ _ Tk) as (q & Q1 & Q2 & Q3).
    assert (Dq : In (p_name q, p_msg q) (m_done (n_box x who))). { destruct (if_got _ Fl q Q1) as [Z|Z]; auto. rewrite P2 in Z. destruct Z. }
    destruct (before_total (p_name q) (p_name p)) as [Eq|[B|B]].
    + right. rewrite Eq in Dq. pose proof (done_fun _ _ _ _ Dk Dq Dp) as Em. apply (same_ct (n_done x)); auto. congruence.
    + left. eapply (done_lt x who (p_name q) (p_msg q) (p_name p) (p_msg p)); eauto.
    + exfalso. apply NT'. rewrite X3. eapply (o_got _ _ _ _ _ O); eauto.
Qed.
Lemma taken_send done who hn mn msg w ct : taken (done ++ [Send who hn mn msg]) w ct <-> taken done w ct.
Proof.
  split; intros (o & n & X); exists o, n; [|apply in_or_app; now left]. apply in_app_iff in X as [X|[X|[]]]; [auto|discriminate].
Qed.
Lemma taken_recv done who order now ct0 w ct : taken (done ++ [Recv who order now ct0]) w ct <-> taken done w ct \/ (w = who /\ ct = ct0).
Proof.
  split.
  - intros (o & n & X). apply in_app_iff in X as [X|[[= -> -> -> ->]|[]]]; [left; exists o, n; auto|auto].
  - intros [(o & n & X)|[-> ->]]; [exists o, n; apply in_or_app; now left|exists order, now; apply in_or_app; right; now left].
Qed.
Lemma small_back done l : small E (done ++ l) -> small E done.
Proof. unfold small, few. rewrite app_length. lia. Qed.

(** The mailbox of [who] moves, and nothing else changes but what was lost on the way to it. *)
Lemma whole_box x who m' gone : whole x -> m_got m' = m_got (n_box x who) ->
  path (id (negb who)) m' (n_fly x (negb who)) (map snd (n_said x (negb who))) (n_lost x (negb who) ++ gone) ->
  ((length (n_lost x (negb who)) <= 80)%nat -> ord (taken (n_done x) who) (id (negb who)) m' (n_up x who) (map snd (n_heard x who))) ->
  whole (mkNet (n_done x) (n_dir x) (n_up x) (n_fly x) (set (n_box x) who m') (n_said x) (n_heard x)
      (set (n_lost x) (negb who) (n_lost x (negb who) ++ gone)) (n_gone x)).
Proof.
  intros [W1 W2 W3 W4 W5 W6 W7 W8 W9] G P O.
  constructor; cbn [n_done n_dir n_up n_fly n_box n_said n_heard n_lost n_gone]; auto.
  - intros w. specialize (W4 w). destruct w, who; unfold set; cbn [negb Bool.eqb] in *; auto.
  - intros w ct X. destruct (W6 w ct X) as (q & Q). exists q. destruct w, who; unfold set; cbn [negb Bool.eqb] in *; rewrite ?G; auto.
  - intros w. specialize (W9 w). destruct w, who; unfold set; cbn [negb Bool.eqb] in *; auto; rewrite app_length; intros L; apply O; lia.
Qed.

(** A message of the contact reaches the client. *)
Lemma whole_receive x who s p r m' done' dir' up' heard' gone' : whole x -> n_up x who = true ->
  m_sess (n_box x who) = Some s -> s_wire s = p :: r -> exec careful (n_box x who) AReceive = Some m' ->
  conv done' -> reach done' dir' -> log_of done' = log_of (n_done x) ->
  (forall w ct, taken done' w ct <-> taken (n_done x) w ct \/ (w = who /\ ct = DiskMessage_Payload (p_msg p) /\ (heard' <> n_heard x who \/ gone' <> n_gone x who))) ->
  ((heard' = n_heard x who /\ gone' = n_gone x who) \/
   (from_him (id (negb who)) (p_msg p) = true /\ ~ taken (n_done x) who (DiskMessage_Payload (p_msg p)) /\
     ((exists m, heard' = n_heard x who ++ [(m, DiskMessage_Payload (p_msg p))] /\ gone' = n_gone x who /\ In (m, DiskMessage_Payload (p_msg p)) (n_said x (negb who))) \/
      (heard' = n_heard x who /\ gone' = n_gone x who ++ [DiskMessage_Payload (p_msg p)])))) ->
  ((length (n_lost x (negb who)) <= 80)%nat -> up' = true -> from_him (id (negb who)) (p_msg p) = true -> taken done' who (DiskMessage_Payload (p_msg p))) ->
  forall x', n_done x' = done' -> n_dir x' = dir' -> n_fly x' = n_fly x -> n_said x' = n_said x -> n_lost x' = n_lost x ->
  (forall w, n_up x' w = set (n_up x) who up' w) -> (forall w, n_box x' w = set (n_box x) who m' w) ->
  (forall w, n_heard x' w = set (n_heard x) who heard' w) -> (forall w, n_gone x' w = set (n_gone x) who gone' w) -> whole x'.
Proof.
  intros W Up S Wi Ex V R Lg Tk Hg Rs x' E1 E2 E3 E4 E5 E6 E7 E8 E9. destruct (wh_path _ W who) as [P1 P2 _ _ _ _ _].
  assert (Mono : forall w c, taken (n_done x) w c -> taken done' w c) by (intros w c X; apply Tk; auto).
  assert (G : m_got m' = m_got (n_box x who) ++ [p]) by (cbn [exec] in Ex; rewrite S, Wi in Ex; now injection Ex as <-).
  pose proof W as [W1 W2 W3 W4 W5 W6 W7 W8 W9].
  assert (Long : forall (A : Type) (l : list A) y, l ++ [y] <> l).
  { intros A l y X. apply (f_equal (@length A)) in X. rewrite app_length in X. cbn in X. lia. }
  constructor; rewrite ?E1, ?E2, ?E3, ?E4, ?E5; auto; try (intros w ct; rewrite ?E6, ?E7, ?E8, ?E9; revert w ct); try (intros w; rewrite ?E6, ?E7, ?E8, ?E9; revert w).
  - intros w. now rewrite Lg.
  - intros w. destruct (Bool.bool_dec w who) as [->|N]; [rewrite set_eq|rewrite set_other by auto; auto]. eapply path_receive; eauto.
  - intros w ct. destruct (Bool.bool_dec w who) as [->|N]; [|rewrite !set_other by auto; rewrite <- W5, Tk; tauto].
    rewrite !set_eq, Tk. specialize (W5 who ct). destruct Hg as [[-> ->]|(Hf & Nt & [(m & -> & -> & _)|[-> ->]])].
    + rewrite W5. split; [intros [X|(_ & _ & [X|X])]; [exact X|destruct (X eq_refl)|destruct (X eq_refl)]|auto].
    + rewrite map_app, in_app_iff. cbn [map snd In]. specialize (Long _ (n_heard x who) (m, DiskMessage_Payload (p_msg p))). split.
      * intros [X|(_ & -> & _)]; [apply W5 in X; tauto|auto].
      * intros [[X|[<-|[]]]|X]; auto; tauto.
    + rewrite in_app_iff. cbn [In]. specialize (Long _ (n_gone x who) (DiskMessage_Payload (p_msg p))). split.
      * intros [X|(_ & -> & _)]; [apply W5 in X; tauto|auto].
      * intros [X|[X|[<-|[]]]]; auto; tauto.
  - intros w ct X. apply Tk in X as [X|(-> & -> & Ch)].
    + destruct (W6 w ct X) as (q & Q1 & Q2 & Q3). exists q. split; auto. destruct (Bool.bool_dec w who) as [->|N]; [rewrite set_eq, G; apply in_or_app; now left|now rewrite set_other by auto].
    + exists p. rewrite set_eq, G. destruct Hg as [[-> ->]|(Hf & _)]; [destruct Ch as [Ch|Ch]; destruct (Ch eq_refl)|]. repeat split; auto. apply in_or_app. right. now left.
  - intros w. destruct (Bool.bool_dec w who) as [->|N]; [|rewrite set_other by auto; apply W7]. rewrite set_eq.
    destruct Hg as [[-> ->]|(Hf & Nt & [(m & -> & -> & Q)|[-> ->]])]; try apply W7. intros y Y. apply in_app_iff in Y as [Y|[<-|[]]]; auto. now apply W7.
  - intros w. destruct (Bool.bool_dec w who) as [->|N]; [|rewrite !set_other by auto; auto]. rewrite !set_eq. specialize (W8 who).
    destruct Hg as [[-> ->]|(Hf & Nt & [(m & -> & -> & Q)|[-> ->]])]; auto; rewrite W5, <- in_app_iff in Nt.
    + rewrite map_app, <- app_assoc. cbn [map snd app]. apply NoDup_Add with (a := DiskMessage_Payload (p_msg p)) (l := map snd (n_heard x who) ++ n_gone x who); [apply Add_app|]. auto.
    + rewrite app_assoc. apply NoDup_Add with (a := DiskMessage_Payload (p_msg p)) (l := map snd (n_heard x who) ++ n_gone x who); [|auto].
      rewrite <- (app_nil_r (map snd (n_heard x who) ++ n_gone x who)) at 1. apply Add_app.
  - intros w L. specialize (W9 w L). destruct (Bool.bool_dec w who) as [->|N].
    + rewrite !set_eq. rewrite Up in W9. apply (ord_recv (taken (n_done x) who) (taken done' who) (id (negb who)) (n_box x who) m' (map snd (n_heard x who)) (map snd heard') s p r up'); auto.
      destruct Hg as [[-> ->]|(Hf & Nt & [(m & -> & -> & Q)|[-> ->]])]; auto. right. rewrite map_app. cbn [map snd]. repeat split; auto.
      intros c X. apply W5. auto.
    + rewrite !set_other by auto. eapply ord_mono; [|exact W9]. auto.
Qed.

Lemma wire_nonce priv hn mn msg now d d' ct bb : length hn = 24%nat ->
  transmit hmac sha256 x25519 base seal priv hn mn msg now d d' (Some ct) bb -> ct_nonce ct = hn.
Proof.
  intros L T. inversion T as [|p r r' ct' d'' b' Lo En Sv]; subst. unfold encrypt in En. destruct (if ratchet_flag _ then _ else _) as [r2 ok].
  destruct ok; cbn [negb] in En; [|discriminate]. injection En as _ <-. unfold ct_nonce. rewrite <- L. now apply firstn_app_len.
Qed.

Lemma whole_step x x' : whole x -> small E (n_done x') -> nstep x x' -> whole x'.
Proof.
  intros W Sm St. pose proof W as [W1 W2 W3 W4 W5 W6 W7 W8 W9].
  destruct St as [who priv hn mn msg now d' ct Up Ti L1 L2 Fr Tr Pr|who k|who ct rest n at_ m' Fl Np Ok Ex|who ct rest Fl
    |who act m' Ow Ex|who s p r m' Up S Wi Hf Ex|who s p r m' order now d' msg Up Ti Or S Wi Hf Ex Rc
    |who s p r m' order now pr ra ra' o Up Ti Or S Wi Hf Ex Lo De Ng|who s p r m' order now d' on Up Ti Or S Wi Hf Ex Rc|who|who Sn];
    cbn [n_done] in Sm.
  - (* say *)
    apply small_back in Sm as Sm0.
    assert (Fr' : forall en, In en (log_of (n_done x)) -> ct_nonce (en_ct en) <> hn).
    { intros en X. apply (Fr (en_from en) (en_plain en, en_ct en)). rewrite W3. apply in_map_iff. exists en. split; auto. now apply ofw_In. }
    destruct (conv_send hmac sha256 x25519 base seal unseal xs sk E a b t0 t1 ST (n_done x) (n_dir x) who priv hn mn msg now d' ct W2 W1 Sm0 Tr Pr L1 L2 Fr') as (V & l & Lg).
    assert (Tk : forall w c, taken (n_done x ++ [Send who hn mn msg]) w c <-> taken (n_done x) w c) by (intros; apply taken_send).
    assert (Sd : forall w, set (n_said x) who (n_said x who ++ [(msg, ct)]) w = map (fun en => (en_plain en, en_ct en)) (ofw w (log_of (n_done x ++ [Send who hn mn msg])))).
    { intros w. rewrite Lg, ofw_cons, map_app. cbn [en_from]. rewrite <- W3. destruct (Bool.bool_dec w who) as [->|N].
      - rewrite set_eq, Bool.eqb_reflx. reflexivity.
      - rewrite set_other by auto. destruct (Bool.eqb_spec who w); [congruence|]. cbn [map]. now rewrite app_nil_r. }
    constructor; cbn [n_done n_dir n_up n_fly n_box n_said n_heard n_lost n_gone]; auto.
    + pose proof (Re_send _ _ _ _ _ _ _ _ _ _ _ (n_done x) (n_dir x) who priv hn mn msg now d' (Some ct) true W2 Ti Tr (conj Pr eq_refl)) as Q. exact Q.
    + intros w. specialize (W4 w). destruct (Bool.bool_dec (negb w) who) as [<-|N]; [|rewrite !set_other by auto; auto].
      rewrite !set_eq, map_app. cbn [map snd]. apply path_say; auto. intros X. apply in_map_iff in X as (y & Y1 & Y2). apply (Fr _ _ Y2). rewrite Y1.
      exact (wire_nonce _ _ _ _ _ _ _ _ _ L1 Tr).
    + intros w c. rewrite Tk. apply W5.
    + intros w c X. rewrite Tk in X. auto.
    + intros w y Y. apply W7 in Y. destruct (Bool.bool_dec (negb w) who) as [<-|N]; [|rewrite set_other by auto; auto]. rewrite set_eq. apply in_or_app. now left.
    + intros w L. eapply ord_mono; [|apply (W9 w L)]. intros c X. now apply Tk.
  - (* cut *)
    constructor; cbn [n_done n_dir n_up n_fly n_box n_said n_heard n_lost n_gone]; auto.
    + intros w. specialize (W4 w). destruct (Bool.bool_dec (negb w) who) as [<-|N]; [|rewrite !set_other by auto; auto]. rewrite !set_eq. eapply path_lose; [exact W4| |].
      * rewrite <- (firstn_skipn k (n_fly x (negb w))) at 2. apply sub_app_l.
      * rewrite <- (firstn_skipn k (n_fly x (negb w))) at 1. reflexivity.
    + intros w. destruct (Bool.bool_dec (negb w) who) as [<-|N]; [|rewrite set_other by auto; auto]. rewrite set_eq, app_length. intros L. apply W9. lia.
  - (* arrive *)
    pose proof (W4 (negb who)) as P. rewrite Bool.negb_involutive, Fl in P. pose proof (path_arrive _ _ _ _ _ _ _ _ _ P Np Ok Ex) as P'.
    assert (G : m_got m' = m_got (n_box x (negb who))) by (refine (exec_got careful _ _ _ _ _ Ex); [exact Ok|discriminate]).
    constructor; cbn [n_done n_dir n_up n_fly n_box n_said n_heard n_lost n_gone]; auto.
    + intros w. specialize (W4 w). destruct (Bool.bool_dec w (negb who)) as [->|N].
      * rewrite Bool.negb_involutive. rewrite !set_eq. exact P'.
      * rewrite !set_other; auto. intros X. apply N. rewrite <- X. now rewrite Bool.negb_involutive.
    + intros w c X. destruct (W6 w c X) as (q & Q). exists q. destruct (Bool.bool_dec w (negb who)) as [->|N]; [rewrite set_eq, G; auto|rewrite set_other by auto; auto].
    + intros w L. specialize (W9 w L). destruct (Bool.bool_dec w (negb who)) as [->|N]; [rewrite set_eq|rewrite set_other by auto; auto].
      rewrite Bool.negb_involutive in *. eapply ord_act; [exact (pt_reach _ _ _ _ _ P)|exact (pt_part _ _ _ _ _ P)| | | | |exact Ex|exact W9]; [exact Ok|discriminate|reflexivity|discriminate].
  - (* turned away *)
    constructor; cbn [n_done n_dir n_up n_fly n_box n_said n_heard n_lost n_gone]; auto.
    + intros w. specialize (W4 w). destruct (Bool.bool_dec (negb w) who) as [<-|N]; [|rewrite !set_other by auto; auto]. rewrite !set_eq. rewrite Fl in W4. eapply path_lose; [exact W4| |].
      * apply sub_skip, sub_refl.
      * apply Permutation_cons_append.
    + intros w. destruct (Bool.bool_dec (negb w) who) as [<-|N]; [|rewrite set_other by auto; auto]. rewrite set_eq, app_length. intros L. apply W9. lia.
  - (* post *)
    destruct (own_ok _ _ _ Ow) as (Ok & NR & NC). pose proof (W4 who) as P. apply whole_box; auto.
    + now apply (exec_got careful _ act).
    + eapply path_post; eauto.
    + intros L. eapply ord_act; [exact (pt_reach _ _ _ _ _ P)|exact (pt_part _ _ _ _ _ P)|exact Ok|exact NR|exact NC| |exact Ex|exact (W9 who L)].
      intros t ->. exact Ow.
  - (* foreign *)
    apply (whole_receive x who s p r m' (n_done x) (n_dir x) true (n_heard x who) (n_gone x who)); cbn [n_done n_dir n_up n_fly n_box n_said n_heard n_lost n_gone]; auto; try congruence.
    all: try (intros w; unfold set; destruct (Bool.eqb_spec w who) as [->|]; now auto).
    intros w c. split; [auto|]. intros [X|(_ & _ & [X|X])]; [exact X|destruct (X eq_refl)|destruct (X eq_refl)].
  - (* hear *)
    destruct (wire_entry x who s p r W S Wi Hf) as [Dp (en & X1 & X2 & X3)]. apply small_back in Sm as Sm0.
    inversion Rc as [| | |pr ra ra' m0 d0 Lo De Sv]; subst m0 d0. rewrite <- X3 in *.
    destruct (conv_recv hmac sha256 x25519 base seal unseal xs sk E a b t0 t1 ST KL KD (n_done x) (n_dir x) pr who order now ra ra' msg en W2 W1 Sm0 Lo Or X1 X2 De) as (V & Em & Nt & Lg).
    apply (whole_receive x who s p r m' (n_done x ++ [Recv who order now (en_ct en)]) (set (n_dir x) who d') true (n_heard x who ++ [(msg, en_ct en)]) (n_gone x who));
      cbn [n_done n_dir n_up n_fly n_box n_said n_heard n_lost n_gone]; auto; try congruence.
    all: try (intros w; unfold set; destruct (Bool.eqb_spec w who) as [->|]; now auto).
    + exact (Re_recv _ _ _ _ _ _ _ _ _ _ _ (n_done x) (n_dir x) who order (en_ct en) now d' (Some msg) true W2 Ti Rc).
    + intros w c. rewrite taken_recv, <- X3. split; [intros [X|[-> ->]]; auto|intros [X|(-> & -> & _)]; auto].
      right. repeat split; auto. left. intros X. apply (f_equal (@length _)) in X. rewrite app_length in X. cbn in X. lia.
    + right. rewrite <- X3. repeat split; auto. left. exists msg. repeat split; auto. rewrite W3. apply in_map_iff. exists en. split; [congruence|]. now apply ofw_In.
    + intros _ _ _. rewrite <- X3. apply taken_recv. auto.
  - (* refuse *)
    destruct (wire_entry x who s p r W S Wi Hf) as [Dp (en & X1 & X2 & X3)]. rewrite <- X3 in De.
    destruct (disk_ideal hmac sha256 x25519 base seal unseal xs sk E a b t0 t1 ST KL KD (n_done x) (n_dir x) pr who order now ra ra' o en W2 W1 Sm Lo Or X1 X2 De) as (An & _ & _).
    apply (whole_receive x who s p r m' (n_done x) (n_dir x) true (n_heard x who) (n_gone x who)); cbn [n_done n_dir n_up n_fly n_box n_said n_heard n_lost n_gone]; auto; try congruence.
    all: try (intros w; unfold set; destruct (Bool.eqb_spec w who) as [->|]; now auto).
    + intros w c. split; [auto|]. intros [X|(_ & _ & [X|X])]; [exact X|destruct (X eq_refl)|destruct (X eq_refl)].
    + intros L _ _. rewrite <- X3. apply (refused_taken x who s p r en); auto.
      destruct (snd (ideal_recv _ _ _)); [|reflexivity]. exfalso. destruct o; try discriminate. now apply (Ng m).
  - (* die *)
    destruct (wire_entry x who s p r W S Wi Hf) as [Dp (en & X1 & X2 & X3)]. rewrite <- X3 in *.
    pose proof (Re_recv _ _ _ _ _ _ _ _ _ _ _ (n_done x) (n_dir x) who order (en_ct en) now d' None on W2 Ti Rc) as R'.
    destruct on.
    + apply small_back in Sm as Sm0. inversion Rc as [| |pr ra ra' m0 d0 b0 Lo De Sv|]; subst d0 b0.
      destruct (conv_recv hmac sha256 x25519 base seal unseal xs sk E a b t0 t1 ST KL KD (n_done x) (n_dir x) pr who order now ra ra' m0 en W2 W1 Sm0 Lo Or X1 X2 De) as (V & Em & Nt & Lg).
      apply (whole_receive x who s p r m' (n_done x ++ [Recv who order now (en_ct en)]) (set (n_dir x) who d') false (n_heard x who) (n_gone x who ++ [en_ct en]));
        cbn [n_done n_dir n_up n_fly n_box n_said n_heard n_lost n_gone]; auto; try congruence.
      all: try (intros w; unfold set; destruct (Bool.eqb_spec w who) as [->|]; now auto).
      * intros w c. rewrite taken_recv, <- X3. split; [intros [X|[-> ->]]; auto|intros [X|(-> & -> & _)]; auto].
        right. repeat split; auto. right. intros X. apply (f_equal (@length _)) in X. rewrite app_length in X. cbn in X. lia.
      * right. rewrite <- X3. repeat split; auto.
    + apply (whole_receive x who s p r m' (n_done x) (set (n_dir x) who d') false (n_heard x who) (n_gone x who)); cbn [n_done n_dir n_up n_fly n_box n_said n_heard n_lost n_gone]; auto; try congruence.
      all: try (intros w; unfold set; destruct (Bool.eqb_spec w who) as [->|]; now auto).
      intros w c. split; [auto|]. intros [X|(_ & _ & [X|X])]; [exact X|destruct (X eq_refl)|destruct (X eq_refl)].
  - (* stop *)
    constructor; cbn [n_done n_dir n_up n_fly n_box n_said n_heard n_lost n_gone]; auto.
    intros w L. specialize (W9 w L). destruct (Bool.bool_dec w who) as [->|N]; [rewrite set_eq; eapply ord_down; eauto|now rewrite set_other by auto].
  - (* restart *)
    constructor; cbn [n_done n_dir n_up n_fly n_box n_said n_heard n_lost n_gone]; auto.
    intros w L. specialize (W9 w L). destruct (Bool.bool_dec w who) as [->|N]; [rewrite set_eq; eapply ord_restart; eauto|now rewrite set_other by auto].
Qed.

Theorem whole_runs x : nruns x -> small E (n_done x) -> whole x.
Proof.
  induction 1 as [D now Ti Im|x x' R IH St]; intros Sm.
  - pose proof (conv_start hmac sha256 x25519 base seal unseal xs sk E a b t0 t1 ST) as V.
    constructor; cbn [n_done n_dir n_up n_fly n_box n_said n_heard n_lost n_gone]; auto.
    + now apply (Re_start _ _ _ _ _ _ _ _ _ _ _ D now).
    + intros w. apply path_start.
    + intros w ct. split; [intros (o & n & [])|intros [[]|[]]].
    + intros w ct (o & n & []).
    + intros w y [].
    + intros w. constructor.
    + intros w _. apply ord_start.
  - apply (whole_step x); auto. apply IH. destruct St; cbn [n_done] in Sm; auto; try (eapply small_back; exact Sm).
    destruct on; auto. eapply small_back; exact Sm.
Qed.
End Net.
