(** Proofs about the locks and channels of the server. *)
From Coq Require Import List Arith Bool Lia.
Import ListNotations.
From Verif Require Import SrvLockModel.
Local Open Scope prog_scope.

Lemma lock_eqb_eq a b : lock_eqb a b = true <-> a = b.
Proof. destruct a, b; cbn; try (split; congruence). rewrite Nat.eqb_eq. split; congruence. Qed.
Lemma chan_eqb_eq a b : chan_eqb a b = true <-> a = b.
Proof. destruct a, b; cbn; try (split; congruence); rewrite Nat.eqb_eq; split; congruence. Qed.

Lemma nth_upd {A} (l : list A) i j x y : nth_error l i = Some y ->
  nth_error (upd l i x) j = if j =? i then Some x else nth_error l j.
Proof.
  revert i j. induction l; intros [|i] [|j]; cbn; try discriminate; try (intros H; now apply IHl); auto.
Qed.
Lemma nth_upd_same {A} (l : list A) i x y : nth_error l i = Some y -> nth_error (upd l i x) i = Some x.
Proof. intros H. rewrite (nth_upd _ _ _ _ _ H), Nat.eqb_refl. reflexivity. Qed.
Lemma nth_upd_other {A} (l : list A) i j x : j <> i -> nth_error (upd l i x) j = nth_error l j.
Proof. revert i j. induction l; intros [|i] [|j]; cbn; auto; congruence || (intros; apply IHl; lia). Qed.
Lemma length_upd {A} (l : list A) i x : length (upd l i x) = length l.
Proof. revert i. induction l; intros [|i]; cbn; auto. Qed.
Lemma nth_snoc {A} (l : list A) j x y : nth_error (l ++ [x]) j = Some y -> nth_error l j = Some y \/ (j = length l /\ y = x).
Proof.
  destruct (Nat.lt_ge_cases j (length l)) as [H|H].
  - rewrite nth_error_app1 by trivial. auto.
  - rewrite nth_error_app2 by trivial. destruct (j - length l) as [|m] eqn:E; cbn.
    + intros [= <-]. right. split; [lia|trivial].
    + destruct m; discriminate.
Qed.

(** * Which waiting is allowed where *)

Definition rank (l : lock) : nat := match l with Srv => 0 | Acct | Eph | Sess _ => 1 | Log => 2 end.
Lemma rank_max l : rank l <= 2.
Proof. destruct l; cbn; lia. Qed.

Inductive allowed (c : conn) : role -> prog -> Prop :=
| A_read : forall r, r = Handler \/ r = Admin -> allowed c r (Read c)
| A_write : forall r, r = Handler \/ r = Admin \/ r = WriterR -> allowed c r (Write c)
| A_tags_h : allowed c Handler (Wait (Snd (Tags c)))
| A_reply : forall r, r = Handler \/ r = NtfnR -> allowed c r (Wait (Snd (Writer c)))
| A_writer : forall p q, allowed c WriterR (Sel (On (Quit c)) p (Recv (Writer c)) q)
| A_ntfn : forall p q, allowed c NtfnR (Sel (On (Quit c)) p (Recv (Ntfn c)) q)
| A_tag : allowed c NtfnR (Wait (Recv (Tags c)))
| A_first : allowed c Feeder (Wait (Snd (Work c)))
| A_work : forall p q, allowed c Feeder (Sel (On (Gone c)) p (Recv (Work c)) q)
| A_feed : forall p q, allowed c Feeder (Sel (On (Gone c)) p (Snd (Ntfn c)) q).

(** [ok r c (h, b) p (h', b')]: begun with the locks [h], and with sessionWriter running
    if [b], [p] ends with [h'] and [b'] if it ends. *)
Definition env := (list lock * bool)%type.
Inductive ok (c : conn) : role -> env -> prog -> env -> Prop :=
| O_skip : forall r e, ok c r e Skip e
| O_seq : forall r e1 e2 e3 p q, ok c r e1 p e2 -> ok c r e2 q e3 -> ok c r e1 (p ;; q) e3
| O_alt : forall r e1 e2 p q, ok c r e1 p e2 -> ok c r e1 q e2 -> ok c r e1 (p <+> q) e2
| O_star : forall r b p, ok c r ([], b) p ([], b) -> ok c r ([], b) (Star p) ([], b)
| O_star_in : forall r l b q, ok c r ([], b) q ([l], b) -> ok c r ([l], b) (Star (Ul l ;; q)) ([l], b)
| O_loop : forall r b p e, ok c r ([], b) p ([], b) -> ok c r ([], b) (Loop p) e
| O_return : forall r b b' p e, ok c r ([], b) p ([], b') -> ok c r ([], b) (Return p) e
| O_lk : forall r l h b, (forall x, In x h -> rank x < rank l) -> ok c r (h, b) (Lk l) (l :: h, b)
| O_ul : forall r l h b, ok c r (l :: h, b) (Ul l) (h, b)
| O_close : forall r d e, ok c r e (Close d) e
| O_which : forall r e, ok c r e CloseAny e
| O_offer : forall r e, ok c r e OfferAny e
| O_set : forall r g e, ok c r e (Set_ g) e
| O_read : forall r d b, allowed c r (Read d) -> ok c r ([], b) (Read d) ([], b)
| O_write : forall r d b, allowed c r (Write d) -> ok c r ([], b) (Write d) ([], b)
| O_wait : forall r g b, allowed c r (Wait g) -> (forall d, g = Snd (Writer d) -> b = true) ->
    ok c r ([], b) (Wait g) ([], b)
| O_sel : forall r g1 p1 g2 p2 b e, allowed c r (Sel g1 p1 g2 p2) ->
    ok c r ([], b) p1 e -> ok c r ([], b) p2 e -> ok c r ([], b) (Sel g1 p1 g2 p2) e
| O_go_writer : forall r p b b', ok c WriterR ([], true) p ([], b') -> ok c r ([], b) (Go WriterR p) ([], true)
| O_go_ntfn : forall r p b', ok c NtfnR ([], true) p ([], b') -> ok c r ([], true) (Go NtfnR p) ([], true)
| O_go_feeder : forall r p b b', ok c Feeder ([], false) p ([], b') -> ok c r ([], b) (Go Feeder p) ([], b).

Inductive oks (c : conn) (r : role) : env -> list prog -> Prop :=
| Os_nil : forall b, oks c r ([], b) []
| Os_cons : forall e e' p k, ok c r e p e' -> oks c r e' k -> oks c r e (p :: k).


Ltac prove_ok :=
  cbv [pre_session socket_handler ticker feeder session_writer session_ntfn handle_session session_loop online twice
       cleanup bye w_exit write_message account_create create valid_token reply_failure respond upto find deliver delete
       dis_enable offline dn_send rendezvous rendezvous_pull cache proxy identity_find acknowledge reply dbg log opt];
  repeat lazymatch goal with
    | |- ok _ _ _ (Seq _ _) _ => eapply O_seq
    | |- ok _ _ _ (Alt _ _) _ => eapply O_alt
    | |- ok _ _ _ (Star _) _ => first [apply O_star | apply O_star_in]
    | |- ok _ _ _ (Sel _ _ _ _) _ => eapply O_sel
    | |- ok _ _ _ (Return _) _ => eapply O_return
    | |- ok _ _ _ (Loop _) _ => eapply O_loop
    | |- ok _ _ _ (Go WriterR _) _ => eapply O_go_writer
    | |- ok _ _ _ (Go NtfnR _) _ => eapply O_go_ntfn
    | |- ok _ _ _ (Go Feeder _) _ => eapply O_go_feeder
    | |- ok _ _ _ (Lk _) _ => apply O_lk; cbn; intros ? ?; intuition (subst; cbn; lia)
    | |- ok _ _ _ (Wait _) _ => apply O_wait; [constructor; auto|intros ?; first [discriminate|reflexivity]]
    | |- ok _ _ _ (Read _) _ => apply O_read; constructor; auto
    | |- ok _ _ _ (Write _) _ => apply O_write; constructor; auto
    | |- ok _ _ _ _ _ => constructor
    | |- allowed _ _ _ => constructor; auto
    end.

Lemma ok_client c : ok c Handler ([], false) (pre_session c) ([], false).
Proof. prove_ok. Unshelve. all: exact true. Qed.
Lemma ok_admin c : ok c Admin ([], false) (socket_handler c) ([], false).
Proof. prove_ok. Unshelve. all: exact true. Qed.
Lemma ok_ticker c : ok c Ticker ([], false) ticker ([], false).
Proof. prove_ok. Unshelve. all: exact true. Qed.

(** * The invariant *)

Fixpoint desc (h : list lock) : Prop :=
  match h with [] => True | l :: r => (forall x, In x r -> rank x < rank l) /\ desc r end.
Lemma desc_fresh l h : desc (l :: h) -> ~ In l h.
Proof. intros [H _] I. specialize (H _ I). lia. Qed.
Lemma desc_split l h h1 h2 : desc (l :: h) -> l :: h = h1 ++ l :: h2 -> h1 ++ h2 = h.
Proof.
  intros D E. destruct h1 as [|x h1]; cbn in E.
  - now injection E.
  - injection E as -> E. exfalso. apply (desc_fresh _ _ D). rewrite E. apply in_or_app. right. now left.
Qed.

Definition tinv (b : bool) (t : thread) : Prop :=
  oks (t_conn t) (t_role t) (t_held t, b) (t_rest t) /\ desc (t_held t).

Definition has_writer (s : state) (c : conn) : Prop :=
  exists j u, nth_error (s_threads s) j = Some u /\ t_conn u = c /\ t_role u = WriterR.

Definition can (w : world) (s : state) (i : nat) : Prop := exists s', step w s i s'.

Lemma threads_fire s g : s_threads (fire s g) = s_threads s.
Proof. destruct g; reflexivity. Qed.

Ltac inv_oks O :=
  let e := fresh "e" in
  inversion O as [|? e ? ? OK OKS]; subst; clear O;
  inversion OK; subst; clear OK.

(** A goroutine keeps the discipline, whatever the others do. *)
Lemma own_step w s i s' t b : step w s i s' -> nth_error (s_threads s) i = Some t -> tinv b t ->
  exists t' b', nth_error (s_threads s') i = Some t' /\ tinv b' t' /\ t_conn t' = t_conn t /\ t_role t' = t_role t /\
    (b' = true -> b = true \/ has_writer s' (t_conn t)).
Proof.
  intros H T [O D].
  assert (X : forall s1 t1, s_threads s1 = s_threads s -> t_conn t1 = t_conn t -> t_role t1 = t_role t -> tinv b t1 ->
    exists t' b', nth_error (s_threads (put s1 i t1)) i = Some t' /\ tinv b' t' /\ t_conn t' = t_conn t /\ t_role t' = t_role t /\
    (b' = true -> b = true \/ has_writer (put s1 i t1) (t_conn t))).
  { intros s1 t1 E1 E2 E3 V. exists t1, b. cbn [put s_threads]. rewrite E1. split.
    - eapply nth_upd_same; eauto.
    - auto. }
  destruct t as [c r k0 h0]; cbn [t_conn t_role t_rest t_held] in *.
  destruct H as [t0 k T0 R|t0 p q k T0 R|t0 p q k T0 R|t0 p q k T0 R|t0 p k T0 R|t0 p k T0 R|t0 p k T0 R|t0 p k T0 R
    |t0 r0 p k T0 R|t0 l k T0 R F|t0 l k h1 h2 T0 R E|t0 d k T0 R C|t0 d k T0 R C|t0 d k T0 R C|t0 d k T0 R|t0 d k T0 R
    |t0 g k T0 R|t0 g k T0 R G|t0 g1 p1 g2 p2 k T0 R G|t0 g1 p1 g2 p2 k T0 R G];
    rewrite T in T0; injection T0 as <-; cbn [t_rest t_held] in R; subst k0; inv_oks O;
    try (apply X; [try reflexivity; try apply threads_fire|reflexivity|reflexivity|split; cbn [rest holding t_conn t_role t_rest t_held];
         [repeat (eassumption || econstructor)|auto]]).
  - exists (mkThread c r k []), true. cbn [add put s_threads rest t_conn t_role t_held]. split; [|split; [|split; [|split]]]; auto.
    + rewrite nth_error_app1; [eapply nth_upd_same; eauto|]. rewrite length_upd. apply nth_error_Some. congruence.
    + split; auto.
    + intros _. right. exists (length (s_threads s)), (mkThread c WriterR [p] []). cbn [add put s_threads]. split; [|auto].
      rewrite nth_error_app2; rewrite length_upd; [|lia]. now rewrite Nat.sub_diag.
  - exists (mkThread c r k []), true. cbn [add put s_threads rest t_conn t_role t_held]. split; [|split; [|split; [|split]]]; auto.
    + rewrite nth_error_app1; [eapply nth_upd_same; eauto|]. rewrite length_upd. apply nth_error_Some. congruence.
    + split; auto.
  - exists (mkThread c r k []), b. cbn [add put s_threads rest t_conn t_role t_held]. split; [|split; [|split; [|split]]]; auto.
    + rewrite nth_error_app1; [eapply nth_upd_same; eauto|]. rewrite length_upd. apply nth_error_Some. congruence.
    + split; auto.
  - split; auto.
  - cbn [t_held] in E. rewrite (desc_split _ _ _ _ D E). trivial.
  - cbn [t_held] in E. rewrite (desc_split _ _ _ _ D E). apply D.
  - destruct (_ <? _); reflexivity.
Qed.

(** What a step leaves alone, and what it begins. *)
Lemma other_step w s i s' t b : step w s i s' -> nth_error (s_threads s) i = Some t -> tinv b t ->
  forall j u, j <> i -> nth_error (s_threads s') j = Some u ->
    nth_error (s_threads s) j = Some u \/
    exists bu, tinv bu u /\ t_conn u = t_conn t /\ (bu = true -> b = true \/ has_writer s' (t_conn t)).
Proof.
  intros H T [O D] j u N U.
  assert (X : forall s1 t1, s_threads s1 = s_threads s -> nth_error (s_threads (put s1 i t1)) j = Some u ->
     nth_error (s_threads s) j = Some u).
  { intros s1 t1 E1. cbn [put s_threads]. rewrite E1, nth_upd_other by trivial. auto. }
  destruct t as [c r k0 h0]; cbn [t_conn t_role t_rest t_held] in *.
  destruct H as [t0 k T0 R|t0 p q k T0 R|t0 p q k T0 R|t0 p q k T0 R|t0 p k T0 R|t0 p k T0 R|t0 p k T0 R|t0 p k T0 R
    |t0 r0 p k T0 R|t0 l k T0 R F|t0 l k h1 h2 T0 R E|t0 d k T0 R C|t0 d k T0 R C|t0 d k T0 R C|t0 d k T0 R|t0 d k T0 R
    |t0 g k T0 R|t0 g k T0 R G|t0 g1 p1 g2 p2 k T0 R G|t0 g1 p1 g2 p2 k T0 R G];
    rewrite T in T0; injection T0 as <-; cbn [t_rest t_held] in R; subst k0;
    try (left; eapply X; [|exact U]; try apply threads_fire; try reflexivity; destruct (_ <? _); reflexivity).
  cbn [add s_threads] in U. apply nth_snoc in U. destruct U as [U|[EJ ->]].
  { left. now apply (X s (rest (mkThread c r (Go r0 p :: k) h0) k)). }
  right. cbn [t_conn].
  assert (HW : forall st, nth_error (s_threads st) j = Some (mkThread c WriterR [p] []) -> has_writer st c).
  { intros st Z. exists j, (mkThread c WriterR [p] []). auto. }
  inv_oks O.
  - exists true. split; [split; [repeat (eassumption || econstructor)|exact I]|split; [reflexivity|]].
    intros _. right. apply HW. cbn [add put s_threads] in *. rewrite nth_error_app2 by apply Nat.le_refl.
    rewrite Nat.sub_diag. reflexivity.
  - exists true. split; [split; [repeat (eassumption || econstructor)|exact I]|split; [reflexivity|auto]].
  - exists false. split; [split; [repeat (eassumption || econstructor)|exact I]|split; [reflexivity|discriminate]].
Qed.

Lemma writer_stays w s i s' c : step w s i s' -> has_writer s c -> has_writer s' c.
Proof.
  intros H (j & u & U & C & R).
  assert (X : forall s1 i t0 t1, s_threads s1 = s_threads s -> nth_error (s_threads s) i = Some t0 -> t_conn t1 = t_conn t0 ->
     t_role t1 = t_role t0 -> has_writer (put s1 i t1) c).
  { intros s1 i0 t0 t1 E T EC ER. destruct (Nat.eq_dec j i0) as [->|N].
    - exists i0, t1. cbn [put s_threads]. rewrite E. rewrite U in T. injection T as ->. split; [eapply nth_upd_same; eauto|]. split; congruence.
    - exists j, u. cbn [put s_threads]. rewrite E, nth_upd_other by trivial. auto. }
  destruct H; try (eapply X; eauto; try apply threads_fire; try reflexivity; destruct (_ <? _); reflexivity).
  destruct (X s i t (rest t k) eq_refl H eq_refl eq_refl) as (j' & u' & U' & P).
  exists j', u'. split; [|trivial]. cbn [add s_threads]. rewrite nth_error_app1; trivial. apply nth_error_Some. congruence.
Qed.

Definition inv (s : state) : Prop :=
  forall i t, nth_error (s_threads s) i = Some t -> exists b, tinv b t /\ (b = true -> has_writer s (t_conn t)).

Lemma inv_step w s i s' : inv s -> step w s i s' -> inv s'.
Proof.
  intros V H j u U.
  assert (exists t, nth_error (s_threads s) i = Some t) as [t T] by (destruct H; eauto).
  destruct (V _ _ T) as (b & TI & W).
  destruct (Nat.eq_dec j i) as [->|N].
  - destruct (own_step _ _ _ _ _ _ H T TI) as (t' & b' & T' & TI' & C & _ & W').
    rewrite U in T'. injection T' as <-. exists b'. split; [trivial|]. intros B. rewrite C.
    destruct (W' B) as [B'|]; [|trivial]. eapply writer_stays; eauto.
  - destruct (other_step _ _ _ _ _ _ H T TI _ _ N U) as [U'|(bu & TU & C & W')].
    + destruct (V _ _ U') as (bu & TU & WU). exists bu. split; [trivial|]. intros B. eapply writer_stays; eauto.
    + exists bu. split; [trivial|]. rewrite C. intros B. destruct (W' B); [|trivial]. eapply writer_stays; eauto.
Qed.

Lemma inv_add s t : inv s -> tinv false t -> inv (add s t).
Proof.
  intros V T j u U. cbn [add s_threads] in U. apply nth_snoc in U. destruct U as [U|[_ ->]].
  - destruct (V _ _ U) as (b & TU & W). exists b. split; [trivial|]. intros B. destruct (W B) as (j' & u' & U' & P).
    exists j', u'. split; [|trivial]. cbn [add s_threads]. rewrite nth_error_app1; trivial. apply nth_error_Some. congruence.
  - exists false. split; [trivial|discriminate].
Qed.

Lemma inv_reach b s : reach b s -> inv s.
Proof.
  induction 1 as [|w s s' R IH B E].
  - intros [|i] t; cbn; [intros [= <-]|destruct i; discriminate].
    exists false. split; [|discriminate]. split; cbn; [|trivial]. econstructor; [apply ok_ticker|constructor].
  - destruct E; [eapply inv_step; eauto| |]; (apply inv_add; [trivial|]); (split; cbn; [|trivial]);
      (econstructor; [|constructor]); [apply ok_client|apply ok_admin].
Qed.

(** * Locks are let go *)

Inductive due (l : lock) : nat -> list prog -> Prop :=
| D_ul : forall n k, due l (S n) (Ul l :: k)
| D_ul' : forall n l' k, due l n k -> due l (S n) (Ul l' :: k)
| D_lk : forall n l' k, due l n k -> due l (S n) (Lk l' :: k)
| D_skip : forall n k, due l n k -> due l (S n) (Skip :: k)
| D_close : forall n c k, due l n k -> due l (S n) (Close c :: k)
| D_which : forall n k, (forall c, due l n (Close c :: k)) -> due l (S n) (CloseAny :: k)
| D_offer : forall n k, due l n k -> due l (S n) (OfferAny :: k)
| D_set : forall n g k, due l n k -> due l (S n) (Set_ g :: k)
| D_seq : forall n p q k, due l n (p :: q :: k) -> due l (S n) (Seq p q :: k)
| D_alt : forall n p q k, due l n (p :: k) -> due l n (q :: k) -> due l (S n) (Alt p q :: k)
| D_star : forall n p k, due l n k -> due l n (p :: Star p :: k) -> due l (S n) (Star p :: k).

Lemma due_mono l n k : due l n k -> forall m, n <= m -> due l m k.
Proof.
  induction 1; intros m M; (destruct m as [|m]; [lia|]);
    first [ constructor; apply IHdue; lia
          | constructor; intros c; apply H0; lia
          | constructor; [apply IHdue1|apply IHdue2]; lia
          | constructor ].
Qed.

Lemma due_ok c r e p e' : ok c r e p e' -> forall l k, In l (fst e) -> (In l (fst e') -> exists n, due l n k) ->
  exists n, due l n (p :: k).
Proof.
  induction 1; intros l0 k I F; cbn [fst] in *; try contradiction.
  - destruct (F I) as [n Y]. exists (S n). now constructor.
  - destruct (IHok1 l0 (q :: k) I) as [n Y].
    { intros I2. destruct (IHok2 l0 k I2 F) as [n Y]. eauto. }
    exists (S n). now constructor.
  - destruct (IHok1 l0 k I F) as [n Y]. destruct (IHok2 l0 k I F) as [m Z].
    exists (S (n + m)). constructor; eapply due_mono; eauto; lia.
  - destruct I as [<-|[]]. destruct F as [n Y]; [now left|].
    exists (S (n + 2)). constructor; [eapply due_mono; eauto; lia|].
    apply (due_mono l 2); [|lia]. constructor. constructor.
  - destruct F as [n Y]; [now right|]. exists (S n). now constructor.
  - destruct I as [<-|I]; [exists 1; constructor|]. destruct (F I) as [n Y]. exists (S n). now constructor.
  - destruct (F I) as [n Y]. exists (S n). now constructor.
  - destruct (F I) as [n Y]. exists (S (S n)). constructor. intros d. now constructor.
  - destruct (F I) as [n Y]. exists (S n). now constructor.
  - destruct (F I) as [n Y]. exists (S n). now constructor.
Qed.

Lemma due_oks c r e k : oks c r e k -> forall l, In l (fst e) -> exists n, due l n k.
Proof.
  induction 1 as [|e e' p k OK OKS IH]; intros l I; [contradiction|]. eapply due_ok; eauto.
Qed.

Lemma lock_dec (a b : lock) : {a = b} + {a <> b}.
Proof. decide equality. apply Nat.eq_dec. Qed.

Lemma free_dec s l : free s l \/ exists j u, nth_error (s_threads s) j = Some u /\ In l (t_held u).
Proof.
  unfold free. induction (s_threads s) as [|x r IH].
  - left. intros [|j] u; discriminate.
  - destruct (in_dec lock_dec l (t_held x)) as [I|I].
    + right. exists 0, x. auto.
    + destruct IH as [F|(j & u & U & IU)].
      * left. intros [|j] u; cbn; [intros [= <-]; trivial|apply F].
      * right. exists (S j), u. auto.
Qed.

(** What a goroutine can wait for: a lock, its client, a channel. *)
Definition waits (p : prog) : bool :=
  match p with Lk _ | Read _ | Write _ | Wait _ | Sel _ _ _ _ => true | _ => false end.

Lemma never_waits w s i t b p k : w_close w = true -> nth_error (s_threads s) i = Some t -> tinv b t ->
  t_rest t = p :: k -> waits p = false -> can w s i.
Proof.
  intros WC T [O D] R N. destruct t as [c r k0 h0]. cbn [t_conn t_role t_rest t_held] in *. subst k0.
  destruct p; try discriminate N.
  1-7: eexists; first [ eapply S_skip; [exact T|reflexivity] | eapply S_seq; [exact T|reflexivity]
         | eapply S_left; [exact T|reflexivity] | eapply S_stop; [exact T|reflexivity] | eapply S_loop; [exact T|reflexivity]
         | eapply S_return; [exact T|reflexivity] | eapply S_go; [exact T|reflexivity] ].
  - inv_oks O. eexists. eapply (S_unlock w s i _ l k [] h); eauto; reflexivity.
  - eexists. eapply S_close; eauto. reflexivity.
  - eexists. eapply (S_which w s i _ 0); eauto. reflexivity.
  - eexists. eapply (S_offer w s i _ 0); eauto. reflexivity.
  - eexists. eapply S_set; eauto. reflexivity.
Qed.

Lemma held_next b t l : tinv b t -> In l (t_held t) ->
  exists p k, t_rest t = p :: k /\ (waits p = false \/ exists l', p = Lk l' /\ rank l < rank l').
Proof.
  intros [O D] I. destruct t as [c r k0 h0]. cbn [t_conn t_role t_rest t_held] in *.
  inversion O as [|e e' p k OK OKS]; subst; [contradiction|]. exists p, k. split; [trivial|].
  inversion OK; subst; cbn; auto; try contradiction. right. eauto.
Qed.

(** * Running it *)

Definition freeb (s : state) (l : lock) : bool :=
  forallb (fun u => negb (existsb (lock_eqb l) (t_held u))) (s_threads s).
Definition readyb (s : state) (g : guard) : bool :=
  match g with Recv ch => 0 <? s_len s ch | Snd ch => s_len s ch <? cap ch | On q => s_on s q end.
Definition exec (w : world) (s : state) (i n : nat) : option state :=
  match nth_error (s_threads s) i with
  | None => None
  | Some t =>
      match t_rest t with
      | [] => None
      | Skip :: k => Some (put s i (rest t k))
      | Seq p q :: k => Some (put s i (rest t (p :: q :: k)))
      | Alt p q :: k => Some (put s i (rest t ((if n =? 0 then p else q) :: k)))
      | Star p :: k => Some (put s i (rest t (if n =? 0 then k else p :: Star p :: k)))
      | Loop p :: k => Some (put s i (rest t (p :: Loop p :: k)))
      | Return p :: _ => Some (put s i (rest t [p]))
      | Go r p :: k => Some (add (put s i (rest t k)) (mkThread (t_conn t) r [p] []))
      | Lk l :: k => if freeb s l then Some (put s i (holding t k (l :: t_held t))) else None
      | Ul l :: k => match t_held t with
                     | x :: h => if lock_eqb x l then Some (put s i (holding t k h)) else None
                     | [] => None
                     end
      | Read c :: k => if w_read w c || s_shut s c then Some (put s i (rest t k)) else None
      | Write c :: k => if w_write w c || s_shut s c then Some (put s i (rest t k)) else None
      | Close c :: k => if w_close w || (w_write w c || s_shut s c) then Some (put (set_shut s c) i (rest t k)) else None
      | CloseAny :: k => Some (put s i (rest t (Close n :: k)))
      | OfferAny :: k =>
          Some (put (if s_len s (Work n) <? cap (Work n) then set_len s (Work n) (S (s_len s (Work n))) else s) i (rest t k))
      | Set_ g :: k => Some (put (set_on s g) i (rest t k))
      | Wait g :: k => if readyb s g then Some (put (fire s g) i (rest t k)) else None
      | Sel g1 p1 g2 p2 :: k =>
          if n =? 0 then if readyb s g1 then Some (put (fire s g1) i (rest t (p1 :: k))) else None
          else if readyb s g2 then Some (put (fire s g2) i (rest t (p2 :: k))) else None
      end
  end.

Lemma freeb_free s l : freeb s l = true <-> free s l.
Proof.
  unfold freeb, free. rewrite forallb_forall. split.
  - intros H j u U I. apply nth_error_In in U. specialize (H _ U). apply negb_true_iff in H.
    assert (X : existsb (lock_eqb l) (t_held u) = true) by (apply existsb_exists; exists l; split; [trivial|now apply lock_eqb_eq]).
    congruence.
  - intros H u U. apply In_nth_error in U. destruct U as [j U]. apply negb_true_iff. apply not_true_is_false.
    intros X. apply existsb_exists in X. destruct X as (x & I & E). apply lock_eqb_eq in E. subst x. exact (H _ _ U I).
Qed.
Lemma readyb_ready s g : readyb s g = true <-> ready s g.
Proof. destruct g; cbn [readyb ready]; [apply Nat.ltb_lt|apply Nat.ltb_lt|tauto]. Qed.

Lemma exec_step w s i n s' : exec w s i n = Some s' -> step w s i s'.
Proof.
  unfold exec. destruct (nth_error _ i) as [t|] eqn:T; [|discriminate].
  destruct (t_rest t) as [|p k] eqn:R; [discriminate|].
  destruct p.
  - intros [= <-]. eapply S_skip; eauto.
  - intros [= <-]. eapply S_seq; eauto.
  - destruct (n =? 0); intros [= <-]; [eapply S_left|eapply S_right]; eauto.
  - destruct (n =? 0); intros [= <-]; [eapply S_stop|eapply S_more]; eauto.
  - intros [= <-]. eapply S_loop; eauto.
  - intros [= <-]. eapply S_return; eauto.
  - intros [= <-]. eapply S_go; eauto.
  - destruct (freeb s l) eqn:F; [|discriminate]. intros [= <-]. eapply S_lock; eauto. now apply freeb_free.
  - destruct (t_held t) as [|x h] eqn:H; [discriminate|]. destruct (lock_eqb x l) eqn:E; [|discriminate].
    apply lock_eqb_eq in E. subst x. intros [= <-]. eapply (S_unlock w s i t l k [] h); eauto.
  - destruct (_ || _) eqn:E; [|discriminate]. intros [= <-]. apply orb_true_iff in E. eapply S_read; eauto.
  - destruct (_ || _) eqn:E; [|discriminate]. intros [= <-]. apply orb_true_iff in E. eapply S_write; eauto.
  - destruct (_ || _) eqn:E; [|discriminate]. intros [= <-]. rewrite !orb_true_iff in E. eapply S_close; eauto.
  - intros [= <-]. eapply S_which; eauto.
  - intros [= <-]. eapply S_offer; eauto.
  - intros [= <-]. eapply S_set; eauto.
  - destruct (readyb s g) eqn:G; [|discriminate]. apply readyb_ready in G. intros [= <-]. eapply S_wait; eauto.
  - destruct (n =? 0).
    + destruct (readyb s g1) eqn:G; [|discriminate]. apply readyb_ready in G. intros [= <-]. eapply S_sel1; eauto.
    + destruct (readyb s g2) eqn:G; [|discriminate]. apply readyb_ready in G. intros [= <-]. eapply S_sel2; eauto.
Qed.

(** Goroutine [i] goes on by itself; [ch] answers its choices. *)
Fixpoint drive (fuel : nat) (w : world) (s : state) (i : nat) (ch : list nat) : state :=
  match fuel with
  | O => s
  | S f =>
      match nth_error (s_threads s) i with
      | None => s
      | Some t =>
          match t_rest t with
          | Alt _ _ :: _ | Star _ :: _ | Sel _ _ _ _ :: _ | CloseAny :: _ | OfferAny :: _ =>
              match ch with
              | [] => s
              | n :: ch => match exec w s i n with Some s' => drive f w s' i ch | None => s end
              end
          | _ => match exec w s i 0 with Some s' => drive f w s' i ch | None => s end
          end
      end
  end.
Inductive cmd := Client (c : conn) | Ctl (c : conn) | Do (w : world) (i : nat) (ch : list nat).
Definition unusedb (s : state) (c : conn) : bool := forallb (fun t => negb (t_conn t =? c)) (s_threads s).
Definition play1 (b : bool) (s : state) (x : cmd) : state :=
  match x with
  | Client c => if unusedb s c then add s (mkThread c Handler [pre_session c] []) else s
  | Ctl c => if unusedb s c then add s (mkThread c Admin [socket_handler c] []) else s
  | Do w i ch => if Bool.eqb (w_close w) b then drive 400 w s i ch else s
  end.
Definition play (b : bool) (l : list cmd) : state := fold_left (play1 b) l init.

Lemma unusedb_unused s c : unusedb s c = true -> unused s c.
Proof.
  unfold unusedb, unused. rewrite forallb_forall. intros H t I E. specialize (H _ I). apply negb_true_iff, Nat.eqb_neq in H. auto.
Qed.
Lemma drive_reach b w i : w_close w = b -> forall fuel s ch, reach b s -> reach b (drive fuel w s i ch).
Proof.
  intros B. induction fuel as [|f IH]; intros s ch R; [trivial|]. cbn [drive].
  assert (X : forall n ch', reach b (match exec w s i n with Some s' => drive f w s' i ch' | None => s end)).
  { intros n ch'. destruct (exec w s i n) as [s'|] eqn:E; [|trivial]. apply IH. eapply R_ev; eauto. eapply E_step. eapply exec_step; eauto. }
  destruct (nth_error _ i) as [t|]; [|trivial]. destruct (t_rest t) as [|p k]; [apply X|].
  destruct p; try apply X; destruct ch; trivial; apply X.
Qed.
Lemma play_reach b l : reach b (play b l).
Proof.
  unfold play. assert (X : forall s, reach b s -> reach b (fold_left (play1 b) l s)); [|apply X; constructor].
  induction l as [|x l IH]; intros s R; [trivial|]. cbn [fold_left]. apply IH.
  destruct x as [c|c|w i ch]; cbn [play1].
  - destruct (unusedb s c) eqn:E; [|trivial]. apply unusedb_unused in E.
    eapply (R_ev b (mkWorld (fun _ => false) (fun _ => false) b)); eauto. now apply E_client.
  - destruct (unusedb s c) eqn:E; [|trivial]. apply unusedb_unused in E.
    eapply (R_ev b (mkWorld (fun _ => false) (fun _ => false) b)); eauto. now apply E_admin.
  - destruct (Bool.eqb _ b) eqn:E; [|trivial]. apply eqb_prop in E. now apply drive_reach.
Qed.

(** * One holder at a time *)
Definition alone (s : state) : Prop :=
  forall i j t u l, nth_error (s_threads s) i = Some t -> nth_error (s_threads s) j = Some u ->
    In l (t_held t) -> In l (t_held u) -> i = j.

Lemma alone_put s s1 i t t1 : s_threads s1 = s_threads s -> alone s -> nth_error (s_threads s) i = Some t ->
  (forall l, In l (t_held t1) -> In l (t_held t) \/ free s l) -> alone (put s1 i t1).
Proof.
  intros E A T H a b x y l X Y IX IY. cbn [put s_threads] in X, Y. rewrite E in X, Y.
  rewrite (nth_upd _ _ a _ _ T) in X. rewrite (nth_upd _ _ b _ _ T) in Y.
  destruct (a =? i) eqn:EA, (b =? i) eqn:EB; try apply Nat.eqb_eq in EA; try apply Nat.eqb_eq in EB; subst; trivial.
  - injection X as <-. destruct (H _ IX) as [I|F]; [eapply A; eauto|exfalso; eapply F; eauto].
  - injection Y as <-. destruct (H _ IY) as [I|F]; [eapply A; eauto|exfalso; eapply F; eauto].
  - eapply A; eauto.
Qed.
Lemma alone_add s t : alone s -> t_held t = [] -> alone (add s t).
Proof.
  intros A H a b x y l X Y IX IY. cbn [add s_threads] in X, Y. apply nth_snoc in X, Y.
  destruct X as [X|[_ ->]]; [|rewrite H in IX; contradiction]. destruct Y as [Y|[_ ->]]; [|rewrite H in IY; contradiction].
  eapply A; eauto.
Qed.
Lemma alone_step w s i s' : alone s -> step w s i s' -> alone s'.
Proof.
  intros A H.
  destruct H;
    try (eapply (alone_put s); [first [reflexivity | apply threads_fire | destruct (_ <? _); reflexivity]|exact A|eassumption|cbn; auto; fail]).
  - apply alone_add; [|reflexivity]. eapply (alone_put s); [reflexivity|exact A|eassumption|cbn; auto].
  - eapply (alone_put s); [reflexivity|exact A|eassumption|]. cbn. intros x [<-|I]; auto.
  - eapply (alone_put s); [reflexivity|exact A|eassumption|]. cbn. intros x I. left. rewrite H1. apply in_app_iff in I. apply in_app_iff. cbn. tauto.
Qed.
Lemma alone_reach b s : reach b s -> alone s.
Proof.
  induction 1 as [|w s s' R IH B E].
  - intros [|i] [|j] t u l; cbn; auto; try (destruct i; discriminate); try (destruct j; discriminate).
  - destruct E; [eapply alone_step; eauto| |]; now apply alone_add.
Qed.
