(** Who reads what is said in a group. *)
From Verif Require Import Base XdrModel RpcModel CrpcModel UiModel GroupModel GroupProofs GroupProps TalkModel TalkProofs.
Local Open Scope N_scope.

(** * C79 *)

(** No restriction on what happens. *)
Definition whatever (_ : world) (_ : label) : Prop := True.

(** What [s] said in [n] with [r] on its list, when no list names anybody twice. *)
Definition told (r n s : bytes) (l : list saying) : list bytes :=
  map y_text (filter (fun y => eqb (y_by y) s && eqb (y_group y) n && mem r (y_members y)) l).

Lemma meant_told r n s l : (forall y, In y l -> NoDup (y_members y)) -> meant r n s l = told r n s l.
Proof.
  induction l as [|y l IH]; intros N; [reflexivity|]. unfold meant, told in *. cbn [flat_map filter].
  rewrite IH by (intros z I; apply N; now right). destruct (eqb (y_by y) s && eqb (y_group y) n); [|reflexivity]. cbn [andb].
  destruct (mem r (y_members y)) eqn:M.
  - apply mem_In in M. rewrite times_once; [reflexivity|apply N; now left|exact M].
  - rewrite times_in; [reflexivity|]. intros I. apply mem_In in I. congruence.
Qed.

(** Whatever others do and whatever is lost: what is shown to a reader as said by
    somebody in a group was said by them in a group of that name, with the reader on
    their list; in the order in which it was said, and each saying at most once for
    every time that the list names the reader. *)
Theorem C79_read : forall who honest, (forall x, i_id (who x) = x) -> forall cl t, goes who honest whatever (quiet cl) t ->
  forall s r n, honest s = true ->
  (exists l, sub l (meant r n s (t_said t)) /\ Forall2 (colours (who r)) l (heard r n s (t_shown t))) /\
  ((forall y, In y (t_said t) -> NoDup (y_members y)) ->
   exists l, sub l (told r n s (t_said t)) /\ Forall2 (colours (who r)) l (heard r n s (t_shown t))).
Proof.
  intros who honest ids cl t G s r n hs.
  destruct (general who honest s r n ids hs (quiet cl) t whatever) as (l & Su & F); [|exact G|].
  { exists []. split; [constructor|constructor]. }
  assert (S1 : sub l (meant r n s (t_said t))).
  { eapply sub_trans; [|exact Su]. rewrite <- (app_nil_r l) at 1. apply sub_app; [apply sub_refl|apply sub_nil]. }
  split; [eauto|]. intros N. rewrite <- meant_told by auto. eauto.
Qed.
Print Assumptions C79_read.

(** If none of it is lost and the reader has the speaker on its own list whenever
    some of it arrives, then all of it that has arrived has been shown, and the rest is on its way. *)
Theorem C79_complete : forall who honest, (forall x, i_id (who x) = x) -> forall cl t s r n, honest s = true -> s <> r ->
  goes who honest (smooth who s r n) (quiet cl) t ->
  exists l, l ++ coming r n s t = meant r n s (t_said t) /\ Forall2 (colours (who r)) l (heard r n s (t_shown t)).
Proof.
  intros who honest ids cl t s r n hs Nsr G. apply (complete who honest s r n ids hs (quiet cl) t Nsr); [|exact G].
  exists []. split; [reflexivity|constructor].
Qed.
Print Assumptions C79_complete.

(** As long as somebody is not on the list of the speaker, nothing that the speaker says
    is sent to them, whatever program they run, and nothing of it is shown to them. *)
Theorem C79_off : forall who honest, (forall x, i_id (who x) = x) -> forall t0 t s r n, honest s = true ->
  coming r n s t0 = [] -> goes who honest (off_list s r n) t0 t ->
  coming r n s t = [] /\ heard r n s (t_shown t) = heard r n s (t_shown t0).
Proof.
  intros who honest ids t0 t s r n hs Z G. destruct (outside who honest s r n ids hs t0 t Z G) as (? & ? & _). auto.
Qed.
Print Assumptions C79_off.

(** ** Cases *)

Definition all_honest (_ : bytes) : bool := true.
Definition plain_self (x : bytes) : self := mkSelf x (bs "zz") (fun r => r) (bs "<") (bs ">").

Lemma goes_trans who honest P a b c : goes who honest P a b -> goes who honest P b c -> goes who honest P a c.
Proof. intros H K. induction K; auto. eapply G_step; eauto. Qed.

Lemma say (P : world -> label -> Prop) (t : world) x n msg mode g :
  mget (c_groups (t_clients t x)) n = Some g -> P t (Own x (CMessage n msg mode)) ->
  goes plain_self all_honest P t
    (mkWorld (put (t_clients t) x (t_clients t x))
       (post (t_channel t) x (o_sent (gc_message x (t_clients t x) n msg mode)))
       (t_said t ++ [mkSaying x n msg mode (GroupList_Members g)]) (t_shown t)).
Proof.
  intros G p. eapply G_step; [apply G_start|exact p|].
  replace [mkSaying x n msg mode (GroupList_Members g)] with (speaks x (t_clients t x) (CMessage n msg mode)) by (cbn; now rewrite G).
  eapply H_own; [reflexivity|reflexivity|]. split; reflexivity.
Qed.

Lemma read (P : world -> label -> Prop) (t : world) x y gm q o c' :
  t_channel t x y = GMessage gm :: q -> P t (Arrives x y (GMessage gm)) ->
  (o, c') = handle_message (fun r => r) (bs "<") (bs ">") (bs "zz") (t_clients t y) x gm ->
  goes plain_self all_honest P t
    (mkWorld (put (t_clients t) y c') (post (put2 (t_channel t) x y q) y (o_sent o))
       (t_said t) (t_shown t ++ shows y x (GMessage gm) o)).
Proof.
  intros E p H. eapply G_step; [apply G_start|exact p|]. eapply H_arrives; [reflexivity|exact E|constructor|]. exact H.
Qed.

(** Three people who agree; the second says two things, and the third reads both. *)
Definition agreed : world := quiet (fun _ => trio 5 [me0; bob; carol]).
Example C79_complete_case : exists t, goes plain_self all_honest (smooth plain_self bob carol club) agreed t /\
  heard carol club bob (t_shown t) = [bs "one"; bs "two <zz>"] /\ heard me0 club bob (t_shown t) = [] /\
  coming carol club bob t = [] /\ coming me0 club bob t = [bs "one"; bs "two zz"] /\
  meant carol club bob (t_said t) = [bs "one"; bs "two zz"].
Proof.
  eexists. split.
  - eapply goes_trans; [eapply (say _ _ bob club (bs "one") 0); [reflexivity|exact I]|].
    eapply goes_trans; [eapply (say _ _ bob club (bs "two zz") 0); [reflexivity|exact I]|].
    eapply goes_trans; [eapply (read _ _ bob carol); [vm_compute; reflexivity| |vm_compute; reflexivity]|].
    { intros _ _ _. split; [|vm_compute; discriminate]. exists (mkGroupList club 5 3 [me0; bob; carol]). split; [reflexivity|right; left; reflexivity]. }
    eapply (read _ _ bob carol); [vm_compute; reflexivity| |vm_compute; reflexivity].
    intros _ _ _. split; [|vm_compute; discriminate]. exists (mkGroupList club 5 3 [me0; bob; carol]). split; [reflexivity|right; left; reflexivity].
  - vm_compute. auto 10.
Qed.

(** Somebody who is not on the list of the speaker. *)
Example C79_off_case : exists t, goes plain_self all_honest (off_list bob dave club) agreed t /\
  t_said t = [mkSaying bob club (bs "one") 0 [me0; bob; carol]] /\ coming carol club bob t = [bs "one"] /\ coming dave club bob t = [].
Proof.
  eexists. split.
  - eapply (say _ _ bob club (bs "one") 0); [reflexivity|]. intros g [= <-]. cbn. intros [E|[E|[E|[]]]]; discriminate.
  - vm_compute. auto.
Qed.

(** The administrator's list decides nothing about what others say: after a kick has
    been acknowledged for everybody, and the kicked is off the administrator's list,
    what a member says who has not read of it yet is still shown to the kicked. *)
Theorem C79_kicked_refuted :
  ~ (forall who honest, (forall x, i_id (who x) = x) -> forall cl g adm n k,
       (forall x, In x (GroupList_Members g) -> mget (c_groups (cl x)) n = Some g) -> admin g = Some adm -> NoDup (GroupList_Members g) ->
       forall t1 t2, goes who honest whatever (quiet cl) t1 ->
       (forall g', mget (c_groups (t_clients t1 adm)) n = Some g' -> ~ In k (GroupList_Members g')) ->
       t_said t1 = [] -> goes who honest whatever t1 t2 ->
       forall m, honest m = true -> heard k n m (t_shown t2) = []).
Proof.
  intros F.
  assert (K1 : exists t1, goes plain_self all_honest whatever agreed t1 /\
    mget (c_groups (t_clients t1 me0)) club = Some (mkGroupList club 6 9 [me0; bob]) /\ t_said t1 = [] /\
    t_clients t1 bob = trio 5 [me0; bob; carol] /\ t_clients t1 carol = trio 5 [me0; bob; carol] /\ t_channel t1 bob carol = [] /\
    t_shown t1 = []).
  { eexists. split.
    - eapply goes_trans.
      { eapply G_step; [apply G_start|exact I|]. eapply (H_own _ _ _ me0 (CKick club carol 9)); [reflexivity|reflexivity|]. vm_compute; reflexivity. }
      eapply goes_trans.
      { eapply G_step; [apply G_start|exact I|]. eapply (H_own _ _ _ me0 (CAcked 0 Written)); [reflexivity|reflexivity|]. vm_compute; split; reflexivity. }
      eapply G_step; [apply G_start|exact I|]. eapply (H_own _ _ _ me0 (CAcked 0 Written)); [reflexivity|reflexivity|]. vm_compute; split; reflexivity.
    - vm_compute. auto 10. }
  destruct K1 as (t1 & G1 & L & Sd & Cb & Cc & Ch & Sh).
  assert (K2 : exists t2, goes plain_self all_honest whatever t1 t2 /\ heard carol club bob (t_shown t2) = [bs "secret"]).
  { eexists. split.
    - eapply goes_trans; [eapply (say _ _ bob club (bs "secret") 0); [rewrite Cb; reflexivity|exact I]|].
      rewrite Cb. eapply (read _ _ bob carol); [cbn [t_channel]; unfold post; rewrite Ch; vm_compute; reflexivity|exact I|].
      cbn [t_clients]. unfold put. replace (eqb carol bob) with false by reflexivity. rewrite Cc. vm_compute; reflexivity.
    - cbn [t_shown]. rewrite Sh. vm_compute. reflexivity. }
  destruct K2 as (t2 & G2 & H2).
  specialize (F plain_self all_honest (fun _ => eq_refl) (fun _ => trio 5 [me0; bob; carol]) (mkGroupList club 5 3 [me0; bob; carol]) me0 club carol
    (fun _ _ => eq_refl) eq_refl).
  assert (ND : NoDup (GroupList_Members (mkGroupList club 5 3 [me0; bob; carol]))).
  { cbn. repeat constructor; cbn; intuition discriminate. }
  specialize (F ND t1 t2 G1). rewrite (F) in H2; try assumption; try reflexivity; [discriminate|].
  intros g' E. rewrite L in E. injection E as <-. cbn. intros [E|[E|[]]]; discriminate.
Qed.
Print Assumptions C79_kicked_refuted.

(** Groups are told apart by nothing but their names: what is said in the group of
    one administrator is shown in the group of another. *)
Theorem C79_mixed_refuted :
  ~ (forall who honest, (forall x, i_id (who x) = x) -> forall cl t s r n, goes who honest whatever (quiet cl) t -> honest s = true ->
       heard r n s (t_shown t) <> [] ->
       forall gs gr, mget (c_groups (t_clients t s)) n = Some gs -> mget (c_groups (t_clients t r)) n = Some gr ->
       (forall x gx, mget (c_groups (cl x)) n = Some gx -> mget (c_groups (t_clients t x)) n = Some gx) ->
       admin gs = admin gr).
Proof.
  intros F.
  set (cl := fun x => if eqb x bob then trio 5 [me0; bob; carol] else trio 7 [dave; carol; bob]).
  assert (K : exists t, goes plain_self all_honest whatever (quiet cl) t /\ heard carol club bob (t_shown t) = [bs "hi"] /\
    (forall x, t_clients t x = cl x)).
  { eexists. split; [|split].
    - eapply goes_trans; [eapply (say _ _ bob club (bs "hi") 0); [reflexivity|exact I]|].
      eapply (read _ _ bob carol); [vm_compute; reflexivity|exact I|vm_compute; reflexivity].
    - vm_compute. reflexivity.
    - intros x. cbn [t_clients quiet]. unfold put. destruct (eqb_spec x carol) as [->|]; [vm_compute; reflexivity|].
      destruct (eqb_spec x bob) as [->|]; reflexivity. }
  destruct K as (t & G & H & C).
  specialize (F plain_self all_honest (fun _ => eq_refl) cl t bob carol club G eq_refl).
  rewrite H, !C in F. specialize (F ltac:(discriminate) _ _ eq_refl eq_refl (fun x gx E => eq_trans (f_equal (fun c => mget (c_groups c) club) (C x)) E)).
  vm_compute in F. discriminate.
Qed.
Print Assumptions C79_mixed_refuted.
