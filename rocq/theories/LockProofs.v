(** Proofs about who waits for whom: a rank for everything that can be waited for. *)
From Coq Require Import List Arith Bool Lia.
Import ListNotations.
From Verif Require Import LockModel.

(** * The order in which things are waited for *)
Definition rank (l : lock) : nat :=
  match l with Pend => 3 | Ratchets => 4 | Z => 5 | Queues => 7 | Conn | Book | Tags | Dbg => 8 end.
Definition brank (b : box) : nat := match b with Ui => 1 | Hi | Lo => 6 | Work | Depth => 2 end.
Definition held := list (lock * mode).
Definition low (r : nat) (h : held) : Prop := Forall (fun x => rank (fst x) < r) h.
Definition lowb (r : nat) (h : held) : bool := forallb (fun x => rank (fst x) <? r) h.
Definition bounded (b : box) : bool := match b with Hi | Lo => true | _ => false end.

Lemma lowb_low r h : lowb r h = true <-> low r h.
Proof.
  unfold lowb, low. rewrite forallb_forall, Forall_forall.
  split; intros H x i; specialize (H x i); [now apply Nat.ltb_lt | now apply Nat.ltb_lt].
Qed.

(** What a goroutine still does keeps to that order, given what it holds: it works for
    boxes of rank [lo], and may wait for goroutines and messages if [top]. *)
Inductive ok (lo : nat) (top : bool) : list act -> held -> Prop :=
| ok_nil : ok lo top [] []
| ok_lk : forall l k h, lo < rank l -> low (rank l) h -> ok lo top k ((l, Writing) :: h) -> ok lo top (Lk l :: k) h
| ok_have : forall l k h, lo < rank l -> low (rank l) h -> ok lo top k ((l, Writing) :: h) -> ok lo top (Have l :: k) ((l, Claimed) :: h)
| ok_rlk : forall l k h, lo < rank l -> low (rank l) h -> ok lo top k ((l, Reading) :: h) -> ok lo top (RLk l :: k) h
| ok_ul : forall l k h1 h2, ~ In l (map fst (h1 ++ h2)) -> ok lo top k (h1 ++ h2) -> ok lo top (Ul l :: k) (h1 ++ (l, Writing) :: h2)
| ok_rul : forall l k h1 h2, ~ In l (map fst (h1 ++ h2)) -> ok lo top k (h1 ++ h2) -> ok lo top (RUl l :: k) (h1 ++ (l, Reading) :: h2)
| ok_net : forall k h, ok lo top k h -> ok lo top (Net :: k) h
| ok_read : forall k, top = true -> ok lo top k [] -> ok lo top (Read :: k) []
| ok_put : forall b body k h, ok (brank b) false body [] -> (bounded b = true -> lo < brank b /\ low (brank b) h) ->
    ok lo top k h -> ok lo top (Put b body :: k) h
| ok_call : forall b body k h, ok (brank b) false body [] -> lo < brank b -> low (brank b) h ->
    ok lo top k h -> ok lo top (Call b body :: k) h
| ok_await : forall b n k h, lo < brank b -> low (brank b) h -> ok lo top k h -> ok lo top (Await b n :: k) h
| ok_spawn : forall body k h, top = true -> ok 0 false body [] -> ok lo top k h -> ok lo top (Spawn body :: k) h
| ok_join : forall k, top = true -> ok lo top k [] -> ok lo top (Join :: k) [].

(** * A check of the functions *)
Definition mode_eqb (x y : mode) : bool :=
  match x, y with Reading, Reading | Claimed, Claimed | Writing, Writing => true | _, _ => false end.
Definition here (l : lock) (m : mode) (x : lock * mode) : bool := lock_beq (fst x) l && mode_eqb (snd x) m.
Fixpoint drop (l : lock) (m : mode) (h : held) : option held :=
  match h with
  | [] => None
  | x :: r => if here l m x then (if existsb (fun y => lock_beq (fst y) l) r then None else Some r)
              else if lock_beq (fst x) l then None
              else match drop l m r with Some r' => Some (x :: r') | None => None end
  end.
Definition held_eqb (x y : held) : bool :=
  (length x =? length y) && forallb (fun p => lock_beq (fst (fst p)) (fst (snd p)) && mode_eqb (snd (fst p)) (snd (snd p))) (combine x y).
Definition is_nil {A} (l : list A) : bool := match l with [] => true | _ => false end.
Fixpoint chk (lo : nat) (top : bool) (s : sk) (h : held) : option held :=
  match s with
  | Skip => Some h
  | Op (Lk l) => if (lo <? rank l) && lowb (rank l) h then Some ((l, Writing) :: h) else None
  | Op (RLk l) => if (lo <? rank l) && lowb (rank l) h then Some ((l, Reading) :: h) else None
  | Op (Ul l) => drop l Writing h
  | Op (RUl l) => drop l Reading h
  | Op Net => Some h
  | Op Read | Op Join => if top && is_nil h then Some h else None
  | Op _ => None
  | Seq p q => match chk lo top p h with Some h' => chk lo top q h' | None => None end
  | Alt p q => match chk lo top p h, chk lo top q h with
               | Some x, Some y => if held_eqb x y then Some x else None
               | _, _ => None
               end
  | Star p => match chk lo top p h with Some x => if held_eqb x h then Some h else None | None => None end
  | SPut b p => match chk (brank b) false p [] with
                | Some [] => if negb (bounded b) || ((lo <? brank b) && lowb (brank b) h) then Some h else None
                | _ => None
                end
  | SCall b p => match chk (brank b) false p [] with
                 | Some [] => if (lo <? brank b) && lowb (brank b) h then Some h else None
                 | _ => None
                 end
  | SSpawn p => match chk 0 false p [] with Some [] => if top then Some h else None | _ => None end
  end.

Lemma lock_beq_eq a b : lock_beq a b = true -> a = b.
Proof. apply internal_lock_dec_bl. Qed.
Lemma lock_beq_refl a : lock_beq a a = true.
Proof. now destruct a. Qed.
Lemma lock_beq_neq a b : lock_beq a b = false -> a <> b.
Proof. intros H ->. now rewrite lock_beq_refl in H. Qed.
Lemma mode_eqb_eq a b : mode_eqb a b = true -> a = b.
Proof. now destruct a, b. Qed.
Lemma held_eqb_eq : forall x y, held_eqb x y = true -> x = y.
Proof.
  unfold held_eqb. induction x as [|[l m] x IH]; intros [|[l' m'] y] H; cbn in H; try discriminate; auto.
  apply andb_true_iff in H. destruct H as [H1 H2]. apply andb_true_iff in H2. destruct H2 as [H2 H3].
  apply andb_true_iff in H2. destruct H2 as [H2 H4]. apply lock_beq_eq in H2. apply mode_eqb_eq in H4. subst.
  f_equal. apply IH. now rewrite H1, H3.
Qed.
Lemma drop_spec l m : forall h h', drop l m h = Some h' ->
  exists h1 h2, h = h1 ++ (l, m) :: h2 /\ h' = h1 ++ h2 /\ ~ In l (map fst (h1 ++ h2)).
Proof.
  induction h as [|[l' m'] r IH]; cbn; [discriminate|]. intros h'. unfold here; cbn.
  destruct (lock_beq l' l) eqn:E; cbn.
  - destruct (mode_eqb m' m) eqn:Em; [|discriminate]. apply lock_beq_eq in E. apply mode_eqb_eq in Em. subst.
    destruct (existsb _ r) eqn:Ex; [discriminate|]. intros [= <-]. exists [], r. repeat split; auto.
    cbn. intros Hi. apply in_map_iff in Hi. destruct Hi as [x [Hx Hi]].
    assert (existsb (fun y => lock_beq (fst y) l) r = true) by (apply existsb_exists; exists x; split; auto; rewrite Hx; apply lock_beq_refl).
    congruence.
  - destruct (drop l m r) as [r'|] eqn:D; [|discriminate]. intros [= <-].
    destruct (IH _ eq_refl) as (h1 & h2 & -> & -> & Hn). exists ((l', m') :: h1), h2. repeat split; auto.
    cbn. intros [<- | Hi]; [now rewrite lock_beq_refl in E | auto].
Qed.

(** What passes the check keeps to the order, whichever way it goes. *)
Lemma chk_ok : forall p x, way p x -> forall lo top h h', chk lo top p h = Some h' ->
  forall k, ok lo top k h' -> ok lo top (x ++ k) h.
Proof.
  induction 1; intros lo top h h' C k Hk.
  - cbn [chk] in C. now injection C as <-.
  - cbn [chk] in C. destruct a; try discriminate.
    + destruct (lo <? rank l) eqn:E1; [|discriminate]. destruct (lowb (rank l) h) eqn:E2; [|discriminate].
      injection C as <-. apply Nat.ltb_lt in E1. apply lowb_low in E2. now constructor.
    + apply drop_spec in C. destruct C as (h1 & h2 & -> & -> & Hn). now constructor.
    + destruct (lo <? rank l) eqn:E1; [|discriminate]. destruct (lowb (rank l) h) eqn:E2; [|discriminate].
      injection C as <-. apply Nat.ltb_lt in E1. apply lowb_low in E2. now constructor.
    + apply drop_spec in C. destruct C as (h1 & h2 & -> & -> & Hn). now constructor.
    + injection C as <-. now constructor.
    + destruct top; [|discriminate]. destruct h; [|discriminate]. injection C as <-. now constructor.
    + destruct top; [|discriminate]. destruct h; [|discriminate]. injection C as <-. now constructor.
  - cbn [chk] in C. destruct (chk lo top p h) as [h1|] eqn:E; [|discriminate]. rewrite <- app_assoc. eauto.
  - cbn [chk] in C. destruct (chk lo top p h) as [h1|] eqn:E; [|discriminate].
    destruct (chk lo top q h) as [h2|] eqn:E2; [|discriminate]. destruct (held_eqb h1 h2) eqn:E3; [|discriminate].
    injection C as <-. eauto.
  - cbn [chk] in C. destruct (chk lo top p h) as [h1|] eqn:E; [|discriminate].
    destruct (chk lo top q h) as [h2|] eqn:E2; [|discriminate]. destruct (held_eqb h1 h2) eqn:E3; [|discriminate].
    apply held_eqb_eq in E3. subst. injection C as <-. eauto.
  - cbn [chk] in C. destruct (chk lo top p h) as [h1|] eqn:E; [|discriminate]. destruct (held_eqb h1 h) eqn:E3; [|discriminate].
    injection C as <-. auto.
  - pose proof C as C0. cbn [chk] in C. destruct (chk lo top p h) as [h1|] eqn:E; [|discriminate].
    destruct (held_eqb h1 h) eqn:E3; [|discriminate]. apply held_eqb_eq in E3. subst h1. injection C as <-.
    rewrite <- app_assoc. eauto.
  - cbn [chk] in C. destruct (chk (brank b) false p []) as [[|]|] eqn:E; try discriminate.
    destruct (negb (bounded b) || (lo <? brank b) && lowb (brank b) h) eqn:E2; [|discriminate]. injection C as <-.
    cbn. constructor; auto.
    + rewrite <- (app_nil_r x). eapply IHway; eauto. constructor.
    + intros B. rewrite B in E2. cbn in E2. apply andb_true_iff in E2. destruct E2 as [E2 E3].
      split; [now apply Nat.ltb_lt | now apply lowb_low].
  - cbn [chk] in C. destruct (chk (brank b) false p []) as [[|]|] eqn:E; try discriminate.
    destruct ((lo <? brank b) && lowb (brank b) h) eqn:E2; [|discriminate]. injection C as <-.
    apply andb_true_iff in E2. destruct E2 as [E2 E3].
    cbn. constructor; auto; [|now apply Nat.ltb_lt | now apply lowb_low].
    rewrite <- (app_nil_r x). eapply IHway; eauto. constructor.
  - cbn [chk] in C. destruct (chk 0 false p []) as [[|]|] eqn:E; try discriminate. destruct top; [|discriminate].
    injection C as <-. cbn. constructor; auto.
    rewrite <- (app_nil_r x). eapply IHway; eauto. constructor.
Qed.

Lemma client_checked : forallb (fun p => match chk 0 true p [] with Some [] => true | _ => false end) goroutines = true.
Proof. vm_compute. reflexivity. Qed.
Lemma client_ok p x : In p goroutines -> way p x -> ok 0 true x [].
Proof.
  intros Hp Hw. pose proof client_checked as H. rewrite forallb_forall in H. specialize (H _ Hp).
  destruct (chk 0 true p []) as [[|]|] eqn:E; try discriminate.
  rewrite <- (app_nil_r x). eapply chk_ok; eauto. constructor.
Qed.

(** * Lists *)
Lemma nth_upd_eq {A} : forall (l : list A) i x y, nth_error l i = Some y -> nth_error (upd l i x) i = Some x.
Proof. induction l; intros [|i] x y H; cbn in *; try discriminate; eauto. Qed.
Lemma nth_upd_ne {A} : forall (l : list A) i j x, i <> j -> nth_error (upd l i x) j = nth_error l j.
Proof. induction l; intros [|i] [|j] x H; cbn; auto; try congruence. Qed.
Lemma length_upd {A} : forall (l : list A) i x, length (upd l i x) = length l.
Proof. induction l; intros [|i] x; cbn; auto. Qed.
Lemma nth_upd {A} (l : list A) i j x y z : nth_error l i = Some z -> nth_error (upd l i x) j = Some y ->
  (i = j /\ y = x) \/ (i <> j /\ nth_error l j = Some y).
Proof.
  intros Hi H. destruct (Nat.eq_dec i j) as [<- | n].
  - left. rewrite (nth_upd_eq _ _ _ _ Hi) in H. split; congruence.
  - right. rewrite nth_upd_ne in H by auto. auto.
Qed.
Lemma nth_snoc {A} (l : list A) x j y : nth_error (l ++ [x]) j = Some y ->
  (j < length l /\ nth_error l j = Some y) \/ (j = length l /\ y = x).
Proof.
  intros H. destruct (Nat.lt_trichotomy j (length l)) as [L | [-> | L]].
  - left. rewrite nth_error_app1 in H; auto.
  - right. rewrite nth_error_app2, Nat.sub_diag in H by auto. cbn in H. split; congruence.
  - rewrite nth_error_app2 in H by lia. destruct (j - length l) eqn:E; [lia|]. cbn in H. now destruct n.
Qed.

(** * The invariant *)
Definition role (b : box) : nat * bool := (brank b, false).
Record good (g_roles : list (nat * bool)) (s : state) : Prop := {
  g_len : length g_roles = length (s_threads s);
  g_srv : forall b, nth_error g_roles (server b) = Some (role b);
  g_ok : forall i t lo top, nth_error (s_threads s) i = Some t -> nth_error g_roles i = Some (lo, top) -> ok lo top (t_ops t) (t_held t);
  g_kid : forall i t j, nth_error (s_threads s) i = Some t -> In j (t_kids t) -> exists lo, nth_error g_roles j = Some (lo, false);
  g_claim : forall i t l, nth_error (s_threads s) i = Some t -> In (l, Claimed) (t_held t) -> exists k, t_ops t = Have l :: k;
  g_box : forall b n body, In (n, body) (s_box s b) -> ok (brank b) false body []
}.

Lemma split_unique (l : lock) (m m' : mode) : forall h1 h2 h1' h2' : held,
  h1 ++ (l, m) :: h2 = h1' ++ (l, m') :: h2' -> ~ In l (map fst (h1 ++ h2)) -> h1 = h1' /\ h2 = h2'.
Proof.
  induction h1 as [|x h1 IH]; intros h2 [|x' h1'] h2' E N; cbn in *.
  - injection E as _ ->. auto.
  - injection E as E1 E2. subst. exfalso. apply N. rewrite map_app. apply in_or_app. right. now left.
  - injection E as E1 E2. subst. exfalso. apply N. now left.
  - injection E as <- E. destruct (IH h2 h1' h2' E) as [-> ->]; auto.
Qed.
Lemma low_not l h : low (rank l) h -> ~ In l (map fst h).
Proof.
  unfold low. rewrite Forall_forall. intros H Hi. apply in_map_iff in Hi. destruct Hi as [x [<- Hx]].
  specialize (H _ Hx). lia.
Qed.

Lemma role_bound R s i t : good R s -> nth_error (s_threads s) i = Some t -> exists lo top, nth_error R i = Some (lo, top).
Proof.
  intros G H. assert (i < length R) by (rewrite (g_len _ _ G); apply nth_error_Some; congruence).
  destruct (nth_error R i) as [[lo top]|] eqn:E; eauto. apply nth_error_None in E. lia.
Qed.

(** One goroutine goes on, whatever becomes of the boxes. *)
Lemma good_set R s i t t' B n : good R s -> nth_error (s_threads s) i = Some t ->
  (forall lo top, nth_error R i = Some (lo, top) -> ok lo top (t_ops t') (t_held t')) ->
  (forall l, In (l, Claimed) (t_held t') -> exists k, t_ops t' = Have l :: k) ->
  incl (t_kids t') (t_kids t) ->
  (forall b n body, In (n, body) (B b) -> ok (brank b) false body []) ->
  good R (mkState (upd (s_threads s) i t') B n).
Proof.
  intros G Hi Hok Hc Hk HB. constructor; cbn.
  - rewrite length_upd. apply G.
  - apply G.
  - intros j u lo top Hj HR. destruct (nth_upd _ _ _ _ _ _ Hi Hj) as [[<- ->] | [N Hj']]; [eauto | eapply g_ok; eauto].
  - intros j u k Hj Hu. destruct (nth_upd _ _ _ _ _ _ Hi Hj) as [[<- ->] | [N Hj']]; eapply g_kid; eauto.
  - intros j u l Hj Hu. destruct (nth_upd _ _ _ _ _ _ Hi Hj) as [[<- ->] | [N Hj']]; [eauto | eapply g_claim; eauto].
  - exact HB.
Qed.

Lemma box_beq_eq a b : box_beq a b = true -> a = b.
Proof. apply internal_box_dec_bl. Qed.

Lemma no_claim R s i t a k : good R s -> nth_error (s_threads s) i = Some t -> t_ops t = a :: k ->
  (forall l, a <> Have l) -> forall l, ~ In (l, Claimed) (t_held t).
Proof.
  intros G Hi Ho Ha l Hl. destruct (g_claim _ _ G _ _ _ Hi Hl) as [k' E]. rewrite Ho in E. injection E as -> _. now apply (Ha l).
Qed.

Lemma put_box R s b n body : good R s -> ok (brank b) false body [] ->
  forall b' n' body', In (n', body') (if box_beq b' b then s_box s b ++ [(n, body)] else s_box s b') -> ok (brank b') false body' [].
Proof.
  intros G Hb b' n' body' Hi. destruct (box_beq b' b) eqn:E; [|eapply g_box; eauto].
  apply box_beq_eq in E. subst. apply in_app_or in Hi. destruct Hi as [Hi | [[= <- <-] | []]]; [eapply g_box; eauto | auto].
Qed.

Lemma good_istep w R s x s' : good R s -> istep w s x s' -> exists R', good R' s'.
Proof.
  intros G St. destruct St.
  - exists R. eapply good_set; eauto.
    + intros lo top HR. pose proof (g_ok _ _ G _ _ _ _ H HR) as O. rewrite H0 in O. inversion O; subst. cbn. now constructor.
    + cbn. intros l' [[= ->] | Hi]; [eauto|]. exfalso. eapply no_claim; eauto. discriminate.
    + cbn. apply incl_refl.
    + apply G.
  - destruct (role_bound _ _ _ _ G H) as (lo & top & HR). pose proof (g_ok _ _ G _ _ _ _ H HR) as O. rewrite H0, H1 in O.
    inversion O; subst.
    assert (h1 = [] /\ h2 = h) as [-> ->].
    { destruct h1 as [|y h1]; cbn in *; [split; congruence|]. exfalso.
      match goal with E : (l, Claimed) :: h = _ |- _ => injection E as <- -> end.
      match goal with E : low (rank l) _ |- _ => apply low_not in E; apply E end.
      rewrite map_app. apply in_or_app. right. now left. }
    cbn in *. exists R. eapply good_set; eauto.
    + intros lo' top' HR'. rewrite HR in HR'. injection HR' as <- <-. cbn. auto.
    + cbn. intros l' [[=] | Hi]. exfalso. destruct (g_claim _ _ G _ _ l' H) as [k' E]; [rewrite H1; now right|].
      rewrite H0 in E. injection E as -> _.
      match goal with E : low (rank l') _ |- _ => apply low_not in E; apply E end.
      apply in_map_iff. exists (l', Claimed). auto.
    + cbn. apply incl_refl.
    + apply G.
  - destruct (role_bound _ _ _ _ G H) as (lo & top & HR). pose proof (g_ok _ _ G _ _ _ _ H HR) as O. rewrite H0 in O.
    inversion O as [| | | |l' k' h1' h2' N O' El Eh | | | | | | | |]; subst. rewrite H1 in Eh.
    destruct (split_unique _ _ _ _ _ _ _ Eh N) as [-> ->].
    exists R. eapply good_set; eauto.
    + intros lo' top' HR'. rewrite HR in HR'. injection HR' as <- <-. cbn. auto.
    + cbn. intros l' Hi. exfalso. apply (no_claim _ _ _ _ _ _ G H H0 ltac:(discriminate) l'). rewrite H1.
      apply in_app_or in Hi. apply in_or_app. destruct Hi; [now left | right; now right].
    + cbn. apply incl_refl.
    + apply G.
  - exists R. eapply good_set; eauto.
    + intros lo top HR. pose proof (g_ok _ _ G _ _ _ _ H HR) as O. rewrite H0 in O. inversion O; subst. cbn. auto.
    + cbn. intros l' [[=] | Hi]. exfalso. eapply no_claim; eauto. discriminate.
    + cbn. apply incl_refl.
    + apply G.
  - destruct (role_bound _ _ _ _ G H) as (lo & top & HR). pose proof (g_ok _ _ G _ _ _ _ H HR) as O. rewrite H0 in O.
    inversion O as [| | | | |l' k' h1' h2' N O' El Eh | | | | | | |]; subst. rewrite H1 in Eh.
    destruct (split_unique _ _ _ _ _ _ _ Eh N) as [-> ->].
    exists R. eapply good_set; eauto.
    + intros lo' top' HR'. rewrite HR in HR'. injection HR' as <- <-. cbn. auto.
    + cbn. intros l' Hi. exfalso. apply (no_claim _ _ _ _ _ _ G H H0 ltac:(discriminate) l'). rewrite H1.
      apply in_app_or in Hi. apply in_or_app. destruct Hi; [now left | right; now right].
    + cbn. apply incl_refl.
    + apply G.
  - exists R. eapply good_set; eauto.
    + intros lo top HR. pose proof (g_ok _ _ G _ _ _ _ H HR) as O. rewrite H0 in O. inversion O; subst. cbn. auto.
    + cbn. intros l' Hi. exfalso. eapply no_claim; eauto. discriminate.
    + cbn. apply incl_refl.
    + apply G.
  - destruct (role_bound _ _ _ _ G H) as (lo0 & top0 & HR0). pose proof (g_ok _ _ G _ _ _ _ H HR0) as O0. rewrite H0 in O0. inversion O0; subst.
    exists R. eapply (good_set R s i t); eauto.
    + intros lo top HR. pose proof (g_ok _ _ G _ _ _ _ H HR) as O. rewrite H0 in O. inversion O; subst. cbn. auto.
    + cbn. intros l' Hi. exfalso. eapply no_claim; eauto. discriminate.
    + cbn. apply incl_refl.
    + cbn. apply put_box with (R := R); auto.
  - destruct (role_bound _ _ _ _ G H) as (lo0 & top0 & HR0). pose proof (g_ok _ _ G _ _ _ _ H HR0) as O0. rewrite H0 in O0. inversion O0; subst.
    exists R. cbn. eapply (good_set R s i t); eauto.
    + intros lo top HR. pose proof (g_ok _ _ G _ _ _ _ H HR) as O. rewrite H0 in O. inversion O; subst. cbn. constructor; auto.
    + cbn. intros l' Hi. exfalso. eapply no_claim; eauto. discriminate.
    + cbn. apply incl_refl.
    + cbn. apply put_box with (R := R); auto.
  - exists R. eapply good_set; eauto.
    + intros lo top HR. pose proof (g_ok _ _ G _ _ _ _ H HR) as O. rewrite H0 in O. inversion O; subst. cbn. auto.
    + cbn. intros l' Hi. exfalso. eapply no_claim; eauto. discriminate.
    + cbn. apply incl_refl.
    + apply G.
  - exists (R ++ [(0, false)]). destruct (role_bound _ _ _ _ G H) as (lo0 & top0 & HR0).
    pose proof (g_ok _ _ G _ _ _ _ H HR0) as O0. rewrite H0 in O0. inversion O0; subst.
    assert (NC := no_claim _ _ _ _ _ _ G H H0 ltac:(discriminate)).
    constructor; cbn.
    + rewrite !app_length, length_upd, (g_len _ _ G). reflexivity.
    + intros b. rewrite nth_error_app1; [apply G|]. apply nth_error_Some. now rewrite (g_srv _ _ G).
    + intros j u lo top Hj HR. apply nth_snoc in Hj. rewrite length_upd in Hj. destruct Hj as [[L Hj] | [-> ->]].
      * rewrite nth_error_app1 in HR by now rewrite (g_len _ _ G).
        destruct (nth_upd _ _ _ _ _ _ H Hj) as [[<- ->] | [N Hj']]; [|eapply g_ok; eauto].
        cbn. rewrite HR0 in HR. injection HR as <- <-. auto.
      * rewrite <- (g_len _ _ G), nth_error_app2, Nat.sub_diag in HR by auto. cbn in HR. injection HR as <- <-. cbn. auto.
    + intros j u k0 Hj Hu. apply nth_snoc in Hj. rewrite length_upd in Hj. destruct Hj as [[L Hj] | [-> ->]]; [|destruct Hu].
      assert (Old : forall v, nth_error (s_threads s) j = Some v -> In k0 (t_kids v) -> exists lo, nth_error (R ++ [(0, false)]) k0 = Some (lo, false)).
      { intros v Hv Hk. destruct (g_kid _ _ G _ _ _ Hv Hk) as [lo E]. exists lo. rewrite nth_error_app1; auto.
        apply nth_error_Some. congruence. }
      destruct (nth_upd _ _ _ _ _ _ H Hj) as [[<- ->] | [N Hj']]; [|eauto].
      cbn in Hu. destruct Hu as [<- | Hu]; [|eauto].
      exists 0. rewrite <- (g_len _ _ G), nth_error_app2, Nat.sub_diag by auto. reflexivity.
    + intros j u l' Hj Hu. apply nth_snoc in Hj. rewrite length_upd in Hj. destruct Hj as [[L Hj] | [-> ->]]; [|destruct Hu].
      destruct (nth_upd _ _ _ _ _ _ H Hj) as [[<- ->] | [N Hj']]; [exfalso; cbn in Hu; eapply NC; eauto | eapply g_claim; eauto].
    + apply G.
  - exists R. eapply good_set; eauto.
    + intros lo top HR. pose proof (g_ok _ _ G _ _ _ _ H HR) as O. rewrite H0 in O. inversion O; subst. cbn. auto.
    + cbn. intros l' Hi. exfalso. eapply no_claim; eauto. discriminate.
    + cbn. apply incl_refl.
    + apply G.
  - pose proof (g_ok _ _ G _ _ _ _ H (g_srv _ _ G b)) as O. rewrite H0 in O. assert (E : t_held t = []) by now inversion O.
    exists R. unfold set_thread; cbn. eapply (good_set R s (server b) t); eauto; cbn.
    + intros lo top HR. rewrite (g_srv _ _ G) in HR. injection HR as <- <-. rewrite E. eapply g_box; eauto. rewrite H1. now left.
    + rewrite E. intros l [].
    + apply incl_refl.
    + intros b' n' body' Hi. destruct (box_beq b' b) eqn:Eb; [|eapply g_box; eauto].
      apply box_beq_eq in Eb. subst. eapply g_box; eauto. rewrite H1. right. eauto.
Qed.

Lemma good_estep R s s' : good R s -> estep s s' -> exists R', good R' s'.
Proof.
  intros G St. destruct St.
  - exists (R ++ [(0, true)]). pose proof (client_ok _ _ H H0) as Hx. constructor; cbn.
    + rewrite !app_length, (g_len _ _ G). reflexivity.
    + intros b. rewrite nth_error_app1; [apply G|]. apply nth_error_Some. now rewrite (g_srv _ _ G).
    + intros j u lo top Hj HR. apply nth_snoc in Hj. destruct Hj as [[L Hj] | [-> ->]].
      * rewrite nth_error_app1 in HR by now rewrite (g_len _ _ G). eapply g_ok; eauto.
      * rewrite <- (g_len _ _ G), nth_error_app2, Nat.sub_diag in HR by auto. cbn in HR. injection HR as <- <-. exact Hx.
    + intros j u k0 Hj Hu. apply nth_snoc in Hj. destruct Hj as [[L Hj] | [-> ->]]; [|destruct Hu].
      destruct (g_kid _ _ G _ _ _ Hj Hu) as [lo E]. exists lo. rewrite nth_error_app1; auto. apply nth_error_Some. congruence.
    + intros j u l' Hj Hu. apply nth_snoc in Hj. destruct Hj as [[L Hj] | [-> ->]]; [|destruct Hu]. eapply g_claim; eauto.
    + apply G.
  - exists R. eapply good_set; eauto.
    + intros lo top HR. pose proof (g_ok _ _ G _ _ _ _ H HR) as O. rewrite H0 in O. inversion O; subst. cbn. auto.
    + cbn. intros l' Hi. exfalso. eapply no_claim; eauto. discriminate.
    + cbn. apply incl_refl.
    + apply G.
Qed.

Lemma good_begin : good [(1, false); (6, false); (2, false)] begin.
Proof.
  constructor; cbn; auto.
  - intros []; reflexivity.
  - intros [|[|[|i]]] t lo top H H'; cbn in *; try discriminate; try (injection H as <-; constructor). now destruct i.
  - intros [|[|[|i]]] t j H H'; cbn in *; try discriminate; try (injection H as <-; destruct H'). now destruct i.
  - intros [|[|[|i]]] t l H H'; cbn in *; try discriminate; try (injection H as <-; destruct H'). now destruct i.
  - intros b n body [].
Qed.
Lemma good_reached w s : reached w s -> exists R, good R s.
Proof.
  induction 1 as [|s s' _ [R IH] St|s x s' _ [R IH] St]; [eexists; apply good_begin | eapply good_estep; eauto | eapply good_istep; eauto].
Qed.
Lemma good_alone w R s s' : good R s -> alone w s s' -> exists R', good R' s'.
Proof. intros G. induction 1 as [|x s1 s2 _ [R1 IH] St]; [eauto | eapply good_istep; eauto]. Qed.

(** * Somebody can go on *)
Definition hw (a : act) : nat :=
  match a with
  | Lk l | RLk l => 2 * rank l
  | Have l => 2 * rank l + 1
  | Put b _ | Call b _ | Await b _ => 2 * brank b
  | _ => 0
  end.
(** Nothing can keep the goroutine from doing it. *)
Definition free (a : act) : Prop :=
  match a with Ul _ | RUl _ | Net | Spawn _ => True | Put b _ | Call b _ => bounded b = false | _ => False end.
Definition open_ended (a : act) : Prop := a = Read \/ a = Join.

Lemma holds_dec s l m : {holds s l m} + {~ holds s l m}.
Proof.
  destruct (existsb (fun t => existsb (here l m) (t_held t)) (s_threads s)) eqn:E; [left|right].
  - apply existsb_exists in E. destruct E as [t [Ht E]]. apply existsb_exists in E. destruct E as [[l' m'] [Hx E]].
    unfold here in E; cbn in E. apply andb_true_iff in E. destruct E as [E1 E2]. apply lock_beq_eq in E1. apply mode_eqb_eq in E2. subst.
    apply In_nth_error in Ht. destruct Ht as [i Hi]. exists i, t. auto.
  - intros (i & t & Hi & Hl). rewrite <- not_true_iff_false in E. apply E. apply existsb_exists. exists t. split; [eapply nth_error_In; eauto|].
    apply existsb_exists. exists (l, m). split; auto. unfold here; cbn. rewrite lock_beq_refl. now destruct m.
Qed.

(** What a goroutine that holds a lock does next. *)
Lemma ok_holding lo top ops h l m : ok lo top ops h -> In (l, m) h -> m <> Claimed ->
  (forall l', In (l', Claimed) h -> exists k, ops = Have l' :: k) ->
  exists a k, ops = a :: k /\ (free a \/ (~ open_ended a /\ 2 * rank l + 1 < hw a)).
Proof.
  intros O Hi Hm Hc.
  assert (Lw : forall r (h' : held), low r h' -> In (l, m) h' -> rank l < r).
  { intros r h' H Hin. unfold low in H. rewrite Forall_forall in H. apply (H _ Hin). }
  assert (NO : forall a, free a -> ~ open_ended a) by (intros a F [-> | ->]; exact F).
  destruct O; try (now destruct Hi); eexists; eexists; (split; [reflexivity|]); cbn; auto.
  - right. split; [intros [|]; discriminate|]. specialize (Lw _ _ H0 Hi). lia.
  - destruct Hi as [[= -> <-] | Hi]; [congruence|]. right. split; [intros [|]; discriminate|]. specialize (Lw _ _ H0 Hi). lia.
  - right. split; [intros [|]; discriminate|]. specialize (Lw _ _ H0 Hi). lia.
  - destruct (bounded b) eqn:B; auto. right. destruct (H eq_refl) as [_ L]. specialize (Lw _ _ L Hi).
    split; [intros [|]; discriminate | lia].
  - right. specialize (Lw _ _ H0 Hi). split; [intros [|]; discriminate | lia].
  - right. specialize (Lw _ _ H0 Hi). split; [intros [|]; discriminate | lia].
Qed.
(** What a goroutine that serves a box does next. *)
Lemma ok_serving lo a k h : ok lo false (a :: k) h -> free a \/ (~ open_ended a /\ 2 * lo < hw a).
Proof.
  intros O. inversion O; subst; cbn; auto; try discriminate;
    try (right; split; [intros [|]; discriminate | lia]).
  destruct (bounded b) eqn:B; auto. right. match goal with H : _ -> _ /\ _ |- _ => destruct (H eq_refl) end.
  split; [intros [|]; discriminate | lia].
Qed.

Lemma act_open a : {open_ended a} + {~ open_ended a}.
Proof. unfold open_ended. destruct a; try (right; intros [|]; discriminate); left; auto. Qed.

Section Progress.
Variable R : list (nat * bool).
Variable s : state.
Hypothesis G : good R s.
Let w := mkWorld None true.
Hypothesis stuck : forall x s', ~ istep w s x s'.

Lemma not_free i t a k : nth_error (s_threads s) i = Some t -> t_ops t = a :: k -> ~ free a.
Proof.
  intros Hi Ho F. destruct (role_bound _ _ _ _ G Hi) as (lo & top & HR). pose proof (g_ok _ _ G _ _ _ _ Hi HR) as O. rewrite Ho in O.
  destruct a; try exact F.
  - inversion O; subst. eapply stuck. eapply I_unlock; eauto.
  - inversion O; subst. eapply stuck. eapply I_runlock; eauto.
  - eapply stuck. eapply I_net; eauto.
  - eapply stuck. eapply I_put; eauto. destruct b; try discriminate; exact I.
  - eapply stuck. eapply I_call; eauto. destruct b; try discriminate; exact I.
  - eapply stuck. eapply I_spawn; eauto.
Qed.

Definition waits (n : nat) : Prop :=
  exists i t a k, nth_error (s_threads s) i = Some t /\ t_ops t = a :: k /\ ~ open_ended a /\ hw a = n.

Lemma holder l m : m <> Claimed -> holds s l m -> exists n, waits n /\ 2 * rank l + 1 < n.
Proof.
  intros Hm (i & t & Hi & Hl). destruct (role_bound _ _ _ _ G Hi) as (lo & top & HR). pose proof (g_ok _ _ G _ _ _ _ Hi HR) as O.
  destruct (ok_holding _ _ _ _ _ _ O Hl Hm) as (a & k & Ho & [F | [NO L]]).
  - intros l' Hl'. eapply g_claim; eauto.
  - exfalso. eapply not_free; eauto.
  - exists (hw a). split; auto. exists i, t, a, k. auto.
Qed.
Lemma claimant l : holds s l Claimed -> exists n, waits n /\ 2 * rank l < n.
Proof.
  intros (i & t & Hi & Hl). destruct (g_claim _ _ G _ _ _ Hi Hl) as [k Ho].
  exists (2 * rank l + 1). split; [|lia]. exists i, t, (Have l), k. repeat split; auto. intros [|]; discriminate.
Qed.
Lemma written l : ~ not_written s l -> exists n, waits n /\ 2 * rank l < n.
Proof.
  intros N. destruct (holds_dec s l Writing) as [H | H]; [destruct (holder l Writing ltac:(discriminate) H) as (n & Hn & L); exists n; split; auto; lia|].
  destruct (holds_dec s l Claimed) as [H' | H']; [now apply claimant|]. exfalso. apply N. now split.
Qed.
Lemma busy b : s_box s b <> [] -> exists n, waits n /\ 2 * brank b < n.
Proof.
  intros N. destruct (s_box s b) as [|[c body] q] eqn:E; [congruence|].
  destruct (nth_error (s_threads s) (server b)) as [t|] eqn:Ht.
  - pose proof (g_ok _ _ G _ _ _ _ Ht (g_srv _ _ G b)) as O. destruct (t_ops t) as [|a k] eqn:Ho.
    + exfalso. eapply stuck. eapply I_take; eauto.
    + destruct (ok_serving _ _ _ _ O) as [F | [NO L]]; [exfalso; eapply not_free; eauto|].
      exists (hw a). split; auto. exists (server b), t, a, k. auto.
  - exfalso. apply nth_error_None in Ht. rewrite <- (g_len _ _ G) in Ht.
    assert (nth_error R (server b) <> None) as H by now rewrite (g_srv _ _ G). apply nth_error_Some in H. lia.
Qed.
Lemma working b t a k : nth_error (s_threads s) (server b) = Some t -> t_ops t = a :: k -> exists n, waits n /\ 2 * brank b < n.
Proof.
  intros Ht Ho. pose proof (g_ok _ _ G _ _ _ _ Ht (g_srv _ _ G b)) as O. rewrite Ho in O.
  destruct (ok_serving _ _ _ _ O) as [F | [NO L]]; [exfalso; eapply not_free; eauto|].
  exists (hw a). split; auto. exists (server b), t, a, k. auto.
Qed.
Lemma full b : bounded b = true -> ~ room w s b -> exists n, waits n /\ 2 * brank b < n.
Proof.
  intros B N. apply busy. intros E. apply N. unfold room. destruct b; try discriminate; cbn; rewrite E; cbn; lia.
Qed.

Lemma room_dec b : bounded b = true -> {room w s b} + {~ room w s b}.
Proof. intros B. unfold room. destruct b; try discriminate; apply lt_dec. Qed.

Lemma higher n : waits n -> exists n', waits n' /\ n < n'.
Proof.
  intros (i & t & a & k & Hi & Ho & NO & <-). destruct (role_bound _ _ _ _ G Hi) as (lo & top & HR).
  pose proof (g_ok _ _ G _ _ _ _ Hi HR) as O. rewrite Ho in O.
  pose proof (not_free _ _ _ _ Hi Ho) as NF.
  destruct a; try (exfalso; now apply NF); cbn [hw]; try (exfalso; apply NO; unfold open_ended; auto; fail).
  - apply written. intros N. eapply stuck. eapply I_lock; eauto.
  - inversion O as [| |l' k' h Lo Lw O' El Eh| | | | | | | | | |]; subst.
    destruct (holds_dec s l Reading) as [H | H].
    + eapply holder; eauto. discriminate.
    + exfalso. eapply stuck. eapply I_have with (h1 := []); eauto.
  - apply written. intros N. eapply stuck. eapply I_rlock; eauto.
  - cbn in NF. destruct (bounded b) eqn:B; [|exfalso; now apply NF].
    apply full; auto. intros N. eapply stuck. eapply I_put; eauto.
  - cbn in NF. destruct (bounded b) eqn:B; [|exfalso; now apply NF].
    apply full; auto. intros N. eapply stuck. eapply I_call; eauto.
  - destruct (s_box s b) as [|] eqn:E; [|apply busy; congruence].
    assert (NB : ~ In (Some n) (map fst (s_box s b))) by (rewrite E; intros []).
    destruct (nth_error (s_threads s) (server b)) as [u|] eqn:Hu.
    + destruct (t_ops u) as [|a' k'] eqn:Eu; [|eapply working; eauto].
      exfalso. eapply stuck. eapply (I_await w s i t b n k); eauto. intros u' Hu' _. congruence.
    + exfalso. eapply stuck. eapply (I_await w s i t b n k); eauto. intros u' Hu' _. congruence.
Qed.

Lemma hw_le a : hw a <= 17.
Proof. destruct a; cbn; try lia; try (destruct l; cbn; lia); destruct b; cbn; lia. Qed.
Lemma nobody n : ~ waits n.
Proof.
  assert (A : forall d n, 17 < n + d -> ~ waits n).
  { induction d as [|d IH]; intros m L Hm; destruct (higher _ Hm) as (m' & Hm' & L').
    - destruct Hm' as (i & t & a & k & _ & _ & _ & <-). pose proof (hw_le a). lia.
    - apply (IH m'); auto. lia. }
  apply (A 18). lia.
Qed.
Lemma only_open i t a k : nth_error (s_threads s) i = Some t -> t_ops t = a :: k -> a = Read.
Proof.
  assert (OE : forall i t a k, nth_error (s_threads s) i = Some t -> t_ops t = a :: k -> open_ended a).
  { intros j u b q Hj Ho. destruct (act_open b) as [?|N]; auto. exfalso. apply (nobody (hw b)). exists j, u, b, q. auto. }
  intros Hi Ho. destruct (OE _ _ _ _ Hi Ho) as [-> | ->]; auto. exfalso.
  eapply stuck. eapply (I_join w s i t k); eauto. intros j Hj.
  destruct (g_kid _ _ G _ _ _ Hi Hj) as [lo HR].
  destruct (nth_error (s_threads s) j) as [u|] eqn:Hu.
  - exists u. split; auto. destruct (t_ops u) as [|b q] eqn:Eu; auto. exfalso.
    pose proof (OE _ _ _ _ Hu Eu) as OB. pose proof (g_ok _ _ G _ _ _ _ Hu HR) as O. rewrite Eu in O.
    destruct OB as [-> | ->]; inversion O; discriminate.
  - exfalso. apply nth_error_None in Hu. rewrite <- (g_len _ _ G) in Hu.
    assert (nth_error R j <> None) as H by congruence. apply nth_error_Some in H. lia.
Qed.

Lemma stuck_settled : settled s.
Proof.
  split.
  - intros i t Hi. destruct (role_bound _ _ _ _ G Hi) as (lo & top & HR). pose proof (g_ok _ _ G _ _ _ _ Hi HR) as O.
    destruct (t_ops t) as [|a k] eqn:Eo.
    + inversion O; subst. auto.
    + rewrite (only_open _ _ _ _ Hi Eo) in O |- *. inversion O; subst. split; eauto.
  - intros b. destruct (s_box s b) as [|y q] eqn:E; auto. exfalso.
    destruct (busy b) as (n & Hn & _); [congruence|]. now apply (nobody n).
Qed.
End Progress.

(** Whether somebody can go on can be found out. *)
Section Dec.
Variable w : world.
Variable s : state.
Definition able (t : thread) (a : act) : Prop :=
  match a with
  | Lk l | RLk l => not_written s l
  | Have l => In (l, Claimed) (t_held t) /\ not_read s l
  | Ul l => In (l, Writing) (t_held t)
  | RUl l => In (l, Reading) (t_held t)
  | Net => w_net w = true
  | Read => False
  | Put b _ | Call b _ => room w s b
  | Await b n => ~ In (Some n) (map fst (s_box s b)) /\
                 forall u, nth_error (s_threads s) (server b) = Some u -> t_job u = Some n -> t_ops u = []
  | Spawn _ => True
  | Join => forall j, In j (t_kids t) -> idle s j
  end.
Lemma idle_dec i : idle s i \/ ~ idle s i.
Proof.
  unfold idle. destruct (nth_error (s_threads s) i) as [t|]; [|right; intros (t & [=] & _)].
  destruct (t_ops t) eqn:E; [left; eauto | right; intros (t' & [= <-] & E'); congruence].
Qed.
Lemma held_dec (t : thread) l m : In (l, m) (t_held t) \/ ~ In (l, m) (t_held t).
Proof. destruct (in_dec (fun x y : lock * mode => ltac:(decide equality; (apply lock_eq_dec || decide equality))) (l, m) (t_held t)); auto. Qed.
Lemma not_written_dec l : not_written s l \/ ~ not_written s l.
Proof. unfold not_written. destruct (holds_dec s l Writing), (holds_dec s l Claimed); tauto. Qed.
Lemma able_dec t a : able t a \/ ~ able t a.
Proof.
  destruct a; cbn; auto using not_written_dec, held_dec.
  - unfold not_read. destruct (held_dec t l Claimed), (holds_dec s l Reading); tauto.
  - destruct (w_net w); auto.
  - unfold room. destruct (capacity w b) as [[|m]|]; auto.
    + destruct (s_box s b); [|right; intros [[=] _]]. destruct (idle_dec (server b)); tauto.
    + destruct (lt_dec (length (s_box s b)) (S m)); auto.
  - unfold room. destruct (capacity w b) as [[|m]|]; auto.
    + destruct (s_box s b); [|right; intros [[=] _]]. destruct (idle_dec (server b)); tauto.
    + destruct (lt_dec (length (s_box s b)) (S m)); auto.
  - destruct (in_dec (fun x y : option nat => ltac:(decide equality; apply Nat.eq_dec)) (Some n) (map fst (s_box s b))); [tauto|].
    destruct (nth_error (s_threads s) (server b)) as [u|] eqn:Hu; [|left; split; auto; discriminate].
    destruct (t_ops u) as [|x k] eqn:Eu; [left; split; auto; congruence|].
    destruct (t_job u) as [m|] eqn:Ej; [|left; split; auto; congruence].
    destruct (Nat.eq_dec m n) as [-> | N]; [right | left; split; auto; congruence].
    intros [_ H]. specialize (H u eq_refl Ej). congruence.
  - induction (t_kids t) as [|j js IH]; [left; intros j []|]. destruct (idle_dec j) as [H|H].
    + destruct IH as [IH|IH]; [left; intros x [<-|Hx]; auto | right; intros A; apply IH; intros x Hx; apply A; now right].
    + right. intros A. apply H. apply A. now left.
Qed.
Lemma able_step i t a k : nth_error (s_threads s) i = Some t -> t_ops t = a :: k -> able t a -> exists x s', istep w s x s'.
Proof.
  intros Hi Ho A. destruct a; cbn in A.
  - eexists. eexists. eapply I_lock; eauto.
  - destruct A as [Hl N]. apply in_split in Hl. destruct Hl as (h1 & h2 & E). eexists. eexists. eapply I_have; eauto.
  - apply in_split in A. destruct A as (h1 & h2 & E). eexists. eexists. eapply I_unlock; eauto.
  - eexists. eexists. eapply I_rlock; eauto.
  - apply in_split in A. destruct A as (h1 & h2 & E). eexists. eexists. eapply I_runlock; eauto.
  - eexists. eexists. eapply I_net; eauto.
  - destruct A.
  - eexists. eexists. eapply I_put; eauto.
  - eexists. eexists. eapply I_call; eauto.
  - destruct A. eexists. eexists. eapply (I_await w s i t b n); eauto.
  - eexists. eexists. eapply I_spawn; eauto.
  - eexists. eexists. eapply I_join; eauto.
Qed.
Lemma step_able x s' : istep w s x s' ->
  (exists i t a k, nth_error (s_threads s) i = Some t /\ t_ops t = a :: k /\ able t a) \/
  (exists b t, nth_error (s_threads s) (server b) = Some t /\ t_ops t = [] /\ s_box s b <> []).
Proof.
  intros St. destruct St; try (left; exists i, t; eexists; eexists; split; [eassumption|]; split; [eassumption|]; cbn; auto; fail).
  - left; exists i, t; eexists; eexists; split; [eassumption|]; split; [eassumption|]. cbn. split; auto. rewrite H1. apply in_or_app. right. now left.
  - left; exists i, t; eexists; eexists; split; [eassumption|]; split; [eassumption|]. cbn. rewrite H1. apply in_or_app. right. now left.
  - left; exists i, t; eexists; eexists; split; [eassumption|]; split; [eassumption|]. cbn. rewrite H1. apply in_or_app. right. now left.
  - right. exists b, t. rewrite H1. repeat split; auto. discriminate.
Qed.
Lemma step_dec : (exists x s', istep w s x s') \/ (forall x s', ~ istep w s x s').
Proof.
  assert (A : (exists b t, nth_error (s_threads s) (server b) = Some t /\ t_ops t = [] /\ s_box s b <> []) \/
              ~ (exists b t, nth_error (s_threads s) (server b) = Some t /\ t_ops t = [] /\ s_box s b <> [])).
  { assert (One : forall b, (exists t, nth_error (s_threads s) (server b) = Some t /\ t_ops t = [] /\ s_box s b <> []) \/
                       ~ (exists t, nth_error (s_threads s) (server b) = Some t /\ t_ops t = [] /\ s_box s b <> [])).
    { intros b. destruct (nth_error (s_threads s) (server b)) as [t|]; [|right; intros (t & [=] & _)].
      destruct (t_ops t) as [|] eqn:E; [|right; intros (t' & [= <-] & E' & _); congruence].
      destruct (s_box s b); [right; intros (t' & _ & _ & N); congruence|]. left. exists t. repeat split; auto. discriminate. }
    destruct (One Ui), (One Hi), (One Lo), (One Work), (One Depth); eauto 6.
    right. intros [[] C]; auto. }
  destruct A as [(b & t & Ht & Ho & N) | A].
  - left. destruct (s_box s b) as [|[c body] q] eqn:E; [congruence|]. eexists. eexists. eapply I_take; eauto.
  - assert (B : (exists t a k, In t (s_threads s) /\ t_ops t = a :: k /\ able t a) \/
                ~ (exists t a k, In t (s_threads s) /\ t_ops t = a :: k /\ able t a)).
    { clear A. induction (s_threads s) as [|t L IH]; [right; intros (t & a & k & [] & _)|].
      destruct IH as [(t' & a & k & Hi & H) | IH]; [left; exists t', a, k; split; [now right | auto]|].
      destruct (t_ops t) as [|a k] eqn:E.
      - right. intros (t' & a & k & [<- | Hi] & H & Ab); [congruence|]. apply IH. eauto 6.
      - destruct (able_dec t a) as [Ab|Ab]; [left; exists t, a, k; split; [now left | auto]|].
        right. intros (t' & a' & k' & [<- | Hi] & H & Ab'); [|apply IH; eauto 6]. rewrite E in H. injection H as <- <-. auto. }
    destruct B as [(t & a & k & Ht & Ho & Ab) | B].
    + left. apply In_nth_error in Ht. destruct Ht as [i Hi]. eapply able_step; eauto.
    + right. intros x s' St. destruct (step_able _ _ St) as [(i & t & a & k & Hi & Ho & Ab) | C]; auto.
      apply B. exists t, a, k. split; auto. eapply nth_error_In; eauto.
Qed.
End Dec.

(** * Nobody goes on for ever *)
Fixpoint asize (a : act) : nat :=
  let all := fix all (l : list act) := match l with [] => 0 | x :: r => asize x + all r end in
  match a with
  | Lk _ => 2
  | Put _ body => 2 + all body
  | Call _ body => 3 + all body
  | Spawn body => 1 + all body
  | _ => 1
  end.
Fixpoint osize (l : list act) : nat := match l with [] => 0 | x :: r => asize x + osize r end.
Definition tsize (l : list thread) : nat := list_sum (map (fun t => osize (t_ops t)) l).
Definition qsize (q : list (option nat * list act)) : nat := list_sum (map (fun x => S (osize (snd x))) q).
Definition bsize (B : box -> list (option nat * list act)) : nat := qsize (B Ui) + qsize (B Hi) + qsize (B Lo) + qsize (B Work) + qsize (B Depth).
Definition size (s : state) : nat := tsize (s_threads s) + bsize (s_box s).

Lemma asize_put b body : asize (Put b body) = 2 + osize body. Proof. reflexivity. Qed.
Lemma asize_call b body : asize (Call b body) = 3 + osize body. Proof. reflexivity. Qed.
Lemma asize_spawn body : asize (Spawn body) = 1 + osize body. Proof. reflexivity. Qed.
Lemma tsize_cons x L : tsize (x :: L) = osize (t_ops x) + tsize L. Proof. reflexivity. Qed.
Lemma qsize_cons x q : qsize (x :: q) = S (osize (snd x)) + qsize q. Proof. reflexivity. Qed.
Lemma tsize_upd L : forall i t t', nth_error L i = Some t -> tsize (upd L i t') + osize (t_ops t) = tsize L + osize (t_ops t').
Proof.
  induction L as [|x L IH]; intros [|i] t t' H; cbn [upd nth_error] in *; try discriminate; rewrite !tsize_cons.
  - injection H as ->. lia.
  - specialize (IH _ _ t' H). lia.
Qed.
Lemma tsize_app L t : tsize (L ++ [t]) = tsize L + osize (t_ops t).
Proof. induction L as [|x L IH]; cbn [app]; rewrite !tsize_cons; [cbn; lia | rewrite IH; lia]. Qed.
Lemma qsize_app q x : qsize (q ++ [x]) = qsize q + S (osize (snd x)).
Proof. induction q as [|y q IH]; cbn [app]; rewrite !qsize_cons; [cbn; lia | rewrite IH; lia]. Qed.
Lemma bsize_set B b q : bsize (fun b' => if box_beq b' b then q else B b') + qsize (B b) = bsize B + qsize q.
Proof. unfold bsize. destruct b; cbn [box_beq]; lia. Qed.

Lemma size_step w s x s' : istep w s x s' -> size s' < size s.
Proof.
  intros St. destruct St; unfold size, goes; cbn [set_thread set_box s_threads s_box s_next].
  all: match goal with Hi : nth_error (s_threads ?s0) ?i = Some ?t, Ho : t_ops ?t = _ |- context [upd _ ?i ?t'] =>
    pose proof (tsize_upd _ _ _ t' Hi) as U; rewrite Ho in U; cbn [t_ops osize] in U end.
  all: try (cbn [asize] in U; lia).
  - pose proof (bsize_set (s_box s) b (s_box s b ++ [(None, body)])) as Bs. rewrite qsize_app in Bs. cbn [snd] in Bs.
    rewrite asize_put in U. lia.
  - pose proof (bsize_set (s_box s) b (s_box s b ++ [(Some (s_next s), body)])) as Bs. rewrite qsize_app in Bs. cbn [snd] in Bs.
    rewrite asize_call in U. cbn [asize] in U. lia.
  - rewrite asize_spawn in U. rewrite tsize_app. cbn [t_ops]. lia.
  - pose proof (bsize_set (s_box s) b q) as Bs. rewrite H1, qsize_cons in Bs. cbn [snd] in Bs. lia.
Qed.
Lemma ends w s : Acc (fun s' s => exists x, istep w s x s') s.
Proof.
  remember (size s) as n eqn:E. revert s E. induction n as [n IH] using lt_wf_ind. intros s ->.
  constructor. intros s' [x St]. apply (IH (size s')); auto. eapply size_step; eauto.
Qed.

(** * A queue of the terminal library that gets full *)
Section Full.
Variable n : nat.
Let w := mkWorld (Some n) true.
Definition line : list act := [Lk Z; Ul Z].

Record dead (s : state) : Prop := {
  d_ui : exists k kids j, nth_error (s_threads s) ui = Some (mkThread (Have Z :: k) [(Z, Claimed)] kids j);
  d_reader : exists i t b k, i <> ui /\ nth_error (s_threads s) i = Some t /\ t_ops t = Put Ui b :: k /\ In (Z, Reading) (t_held t);
  d_full : n <= length (s_box s Ui)
}.
Lemma dead_room s : dead s -> ~ room w s Ui.
Proof.
  intros D. unfold room; cbn. destruct n as [|m] eqn:En.
  - intros [_ (t & Ht & Ho)]. destruct (d_ui _ D) as (k & kids & j & Hu). rewrite Hu in Ht. injection Ht as <-. discriminate.
  - pose proof (d_full _ D). lia.
Qed.
Lemma dead_busy s t : dead s -> nth_error (s_threads s) ui = Some t -> t_ops t <> [].
Proof. intros D H. destruct (d_ui _ D) as (k & kids & j & Hu). rewrite Hu in H. injection H as <-. discriminate. Qed.

Lemma dead_set s i t t' B m : dead s -> i <> ui -> nth_error (s_threads s) i = Some t ->
  (forall b k, t_ops t <> Put Ui b :: k) -> length (B Ui) = length (s_box s Ui) ->
  dead (mkState (upd (s_threads s) i t') B m).
Proof.
  intros D N Hi NP HB. constructor; cbn [s_threads s_box].
  - destruct (d_ui _ D) as (k & kids & j & Hu). exists k, kids, j. now rewrite nth_upd_ne.
  - destruct (d_reader _ D) as (i' & u & b & k & N' & Hi' & Ho & Hl). exists i', u, b, k. split; auto. split; auto.
    rewrite nth_upd_ne; auto. intros ->. rewrite Hi in Hi'. injection Hi' as ->. now apply (NP b k).
  - rewrite HB. apply D.
Qed.
Lemma dead_snoc L B m t : dead (mkState L B m) -> dead (mkState (L ++ [t]) B m).
Proof.
  intros D. constructor; cbn [s_threads s_box].
  - destruct (d_ui _ D) as (k & kids & j & Hu). exists k, kids, j. cbn [s_threads] in Hu. rewrite nth_error_app1; auto.
    apply nth_error_Some. congruence.
  - destruct (d_reader _ D) as (i' & u & b & k & N' & Hi' & Ho & Hl). exists i', u, b, k. cbn [s_threads] in Hi'. split; auto. split; auto.
    rewrite nth_error_app1; auto. apply nth_error_Some. congruence.
  - apply (d_full _ D).
Qed.
Lemma not_ui s i t a k : dead s -> nth_error (s_threads s) i = Some t -> t_ops t = a :: k -> (a = Have Z -> not_read s Z -> False) ->
  (a <> Have Z -> i <> ui).
Proof.
  intros D Hi Ho _ Na ->. destruct (d_ui _ D) as (k' & kids & j & Hu). rewrite Hu in Hi. injection Hi as <-. cbn in Ho.
  injection Ho as <- _. congruence.
Qed.
Lemma dead_read s : dead s -> ~ not_read s Z.
Proof. intros D N. destruct (d_reader _ D) as (i' & u & b & k & N' & Hi' & Ho & Hl). apply N. exists i', u. auto. Qed.

Lemma dead_istep s x s' : dead s -> istep w s x s' -> fst x <> ui /\ dead s'.
Proof.
  intros D St.
  assert (K : forall i t a k, nth_error (s_threads s) i = Some t -> t_ops t = a :: k -> a <> Have Z -> i <> ui).
  { intros i t a k Hi Ho Na ->. destruct (d_ui _ D) as (k' & kids & j & Hu). rewrite Hu in Hi. injection Hi as <-. cbn in Ho.
    injection Ho as <- _. congruence. }
  destruct St; cbn [fst].
  - assert (i <> ui) by (eapply K; eauto; discriminate). split; auto. eapply dead_set; eauto. intros; congruence.
  - assert (i <> ui).
    { intros ->. destruct (d_ui _ D) as (k' & kids & j & Hu). rewrite Hu in H. injection H as <-. cbn in H0. injection H0 as <- _.
      now apply (dead_read _ D). }
    split; auto. eapply dead_set; eauto. intros; congruence.
  - assert (i <> ui) by (eapply K; eauto; discriminate). split; auto. eapply dead_set; eauto. intros; congruence.
  - assert (i <> ui) by (eapply K; eauto; discriminate). split; auto. eapply dead_set; eauto. intros; congruence.
  - assert (i <> ui) by (eapply K; eauto; discriminate). split; auto. eapply dead_set; eauto. intros; congruence.
  - assert (i <> ui) by (eapply K; eauto; discriminate). split; auto. eapply dead_set; eauto. intros; congruence.
  - assert (i <> ui) by (eapply K; eauto; discriminate). split; auto.
    destruct (box_eq_dec b Ui) as [-> | Nb]; [exfalso; now apply (dead_room _ D)|].
    eapply (dead_set s); eauto; [intros; congruence|]. cbn. destruct b; cbn; congruence.
  - assert (i <> ui) by (eapply K; eauto; discriminate). split; auto.
    destruct (box_eq_dec b Ui) as [-> | Nb]; [exfalso; now apply (dead_room _ D)|].
    eapply (dead_set s); eauto; [intros; congruence|]. cbn. destruct b; cbn; congruence.
  - assert (i <> ui) by (eapply K; eauto; discriminate). split; auto. eapply dead_set; eauto. intros; congruence.
  - assert (i <> ui) by (eapply K; eauto; discriminate). split; auto. apply dead_snoc. eapply dead_set; eauto. intros; congruence.
  - assert (i <> ui) by (eapply K; eauto; discriminate). split; auto. eapply dead_set; eauto. intros; congruence.
  - destruct b; cbn [server] in *; try (exfalso; now apply (dead_busy _ _ D H)); split; try discriminate;
      (eapply (dead_set s); eauto; [discriminate | intros; congruence]).
Qed.
Lemma dead_estep s s' : dead s -> estep s s' -> dead s'.
Proof.
  intros D St. destruct St.
  - destruct s. now apply dead_snoc.
  - eapply dead_set; eauto; [|intros; congruence]. intros ->. destruct (d_ui _ D) as (k' & kids & j & Hu). rewrite Hu in H.
    injection H as <-. discriminate.
Qed.
Lemma dead_later s tr s' : dead s -> later w s tr s' -> dead s' /\ forall x, In x tr -> fst x <> ui.
Proof.
  intros D. induction 1 as [|tr s1 s2 _ [D1 IH] St|tr x s1 s2 _ [D1 IH] St]; [split; auto; intros x [] | |].
  - split; auto. eapply dead_estep; eauto.
  - destruct (dead_istep _ _ _ D1 St) as [Hx D2]. split; auto. intros y Hy. apply in_app_or in Hy.
    destruct Hy as [Hy | [<- | []]]; auto.
Qed.

(** /list with [n + 1] conversations. *)
Definition lines (m : nat) : list act := repeat (Put Ui line) m.
Lemma way_line : way printf [Put Ui line].
Proof.
  constructor. change line with ([Lk Z] ++ [] ++ [] ++ [Ul Z]). unfold z_log, opt, lk, ul.
  repeat (apply W_seq || apply W_op || (apply W_left; apply W_skip)).
Qed.
Lemma way_lines m : way (Star printf) (lines m).
Proof. induction m as [|m IH]; [constructor|]. apply (W_more printf [Put Ui line] (lines m)); auto using way_line. Qed.
Definition listing (m : nat) : list act := Put Ui line :: RLk Z :: lines m ++ [RUl Z].
Lemma way_listing m : way keyHandler (listing m).
Proof.
  assert (L : way list_ (listing m)).
  { apply W_left. change (listing m) with ([Put Ui line] ++ [RLk Z] ++ lines m ++ [RUl Z]).
    apply W_seq; [apply way_line|]. unfold listConversations, rlk, rul. repeat (apply W_seq || apply W_op); auto using way_lines. }
  apply W_left. unfold action. rewrite <- (app_nil_l (listing m)). apply W_seq; [apply W_left; constructor|].
  rewrite <- (app_nil_r (listing m)). apply W_seq; [|apply W_left; constructor].
  repeat (first [ exact (W_left _ _ _ L) | apply W_right ]).
Qed.

Lemma room_more s : length (s_box s Ui) < n -> room w s Ui.
Proof. intros L. unfold room. cbn [capacity w_ui w]. clear w. destruct n; lia. Qed.
Lemma room_first s : s_box s Ui = [] -> idle s ui -> room w s Ui.
Proof. intros E J. unfold room. cbn [capacity w_ui w]. clear w. destruct n; [now split | rewrite E; cbn; lia]. Qed.
Definition filling (m : nat) (s : state) : Prop :=
  reached w s /\
  s_threads s = [mkThread [Have Z; Ul Z] [(Z, Claimed)] [] None; mkThread [] [] [] None; mkThread [] [] [] None;
                 mkThread (lines m ++ [RUl Z]) [(Z, Reading)] [] None].
Lemma fill_first m : exists s, filling m s /\ s_box s Ui = [].
Proof.
  set (s0 := mkState (s_threads begin ++ [mkThread (listing m) [] [] None]) (s_box begin) (s_next begin)).
  assert (R0 : reached w s0).
  { eapply R_env; [apply R_begin|]. apply (E_new begin keyHandler); [cbn; tauto | apply way_listing]. }
  eassert (R1 : reached w _).
  { eapply R_step; [apply R0|]. eapply (I_put w s0 3); [reflexivity | reflexivity|].
    apply room_first; [reflexivity | eexists; split; reflexivity]. }
  eassert (R2 : reached w _).
  { eapply R_step; [apply R1|]. eapply (I_rlock w _ 3); [reflexivity | reflexivity|].
    split; intros (i & t & Hi & Hl); destruct i as [|[|[|[|i]]]]; cbn in Hi; try (injection Hi as <-; destruct Hl); destruct i; discriminate. }
  eassert (R3 : reached w _).
  { eapply R_step; [apply R2|]. eapply (I_take w _ Ui); [reflexivity | reflexivity | reflexivity]. }
  eassert (R4 : reached w _).
  { eapply R_step; [apply R3|]. eapply (I_lock w _ 0); [reflexivity | reflexivity|].
    split; intros (i & t & Hi & Hl); destruct i as [|[|[|[|i]]]]; cbn in Hi;
      try (injection Hi as <-; destruct Hl as [[=]|[]]); try (injection Hi as <-; destruct Hl); destruct i; discriminate. }
  eexists. split; [split; [apply R4 | reflexivity] | reflexivity].
Qed.
Lemma fill_more d : forall m s, filling (d + m) s -> length (s_box s Ui) + d <= n -> exists s', filling m s' /\ length (s_box s' Ui) = length (s_box s Ui) + d.
Proof.
  induction d as [|d IH]; intros m s [R T] L; [exists s; split; [now split | lia]|].
  eassert (R1 : reached w _).
  { eapply R_step; [apply R|]. eapply (I_put w s 3); [rewrite T; reflexivity | reflexivity|].
    apply room_more. lia. }
  match type of R1 with reached _ ?s1 => destruct (IH m s1) as (s2 & F & L2) end.
  - split; [exact R1|]. cbn [set_thread set_box s_threads goes t_held t_kids t_job]. rewrite T. reflexivity.
  - cbn. rewrite app_length. cbn. lia.
  - exists s2. split; auto. rewrite L2. cbn. rewrite app_length. cbn. lia.
Qed.
Lemma fill : exists s, reached w s /\ dead s.
Proof.
  destruct (fill_first (n + 1)) as (s & F & E).
  destruct (fill_more n 1 s F) as (s' & [R T] & L); [rewrite E; auto|]. exists s'. split; auto. rewrite E in L. cbn in L.
  constructor.
  - rewrite T. repeat eexists.
  - exists 3. rewrite T. eexists. eexists. eexists. split; [discriminate|]. split; [reflexivity|]. split; [reflexivity | now left].
  - lia.
Qed.
End Full.

(** * One writer *)
Definition excl (s : state) : Prop := forall i j t u l m m',
  nth_error (s_threads s) i = Some t -> nth_error (s_threads s) j = Some u ->
  In (l, m) (t_held t) -> In (l, m') (t_held u) -> m <> Reading -> m' <> Reading -> i = j.
Lemma excl_set s i t t' B n : excl s -> nth_error (s_threads s) i = Some t ->
  (forall l m, m <> Reading -> In (l, m) (t_held t') -> (exists m', m' <> Reading /\ In (l, m') (t_held t)) \/ not_written s l) ->
  excl (mkState (upd (s_threads s) i t') B n).
Proof.
  intros X Hi Sub a b ta tb l m m' Ha Hb La Lb Na Nb. cbn [s_threads] in *.
  assert (W : forall j u m, nth_error (s_threads s) j = Some u -> In (l, m) (t_held u) -> m <> Reading -> ~ not_written s l).
  { intros j u [| |] Hj Hl N [N1 N2]; [congruence | apply N2 | apply N1]; exists j, u; auto. }
  destruct (nth_upd _ _ _ _ _ _ Hi Ha) as [[<- ->] | [Na' Ha']]; destruct (nth_upd _ _ _ _ _ _ Hi Hb) as [[<- ->] | [Nb' Hb']]; auto.
  - destruct (Sub _ _ Na La) as [(x & Nx & Lx) | N]; [eapply X; eauto | exfalso; eapply W; eauto].
  - destruct (Sub _ _ Nb Lb) as [(x & Nx & Lx) | N]; [eapply X; eauto | exfalso; eapply W; eauto].
  - eapply X; eauto.
Qed.
Lemma excl_snoc L B n t : t_held t = [] -> excl (mkState L B n) -> excl (mkState (L ++ [t]) B n).
Proof.
  intros E X i j ti tj l m m' Hi Hj Li Lj Ni Nj. cbn [s_threads] in *.
  apply nth_snoc in Hi. apply nth_snoc in Hj.
  destruct Hi as [[Hi1 Hi] | [-> ->]]; [|rewrite E in Li; destruct Li].
  destruct Hj as [[Hj1 Hj] | [-> ->]]; [|rewrite E in Lj; destruct Lj].
  eapply (X i j); cbn [s_threads]; eauto.
Qed.
Lemma excl_istep w s x s' : excl s -> istep w s x s' -> excl s'.
Proof.
  intros X St. destruct St; try (eapply (excl_set s); eauto; cbn; eauto; fail).
  - eapply excl_set; eauto. cbn. intros l' m N [[= <- <-] | Hl]; eauto.
  - eapply excl_set; eauto. cbn. intros l' m N Hl. left. rewrite H1. apply in_app_or in Hl.
    destruct Hl as [Hl | [[= <- <-] | Hl]].
    + exists m. split; auto. apply in_or_app. auto.
    + exists Claimed. split; [discriminate|]. apply in_or_app. right. now left.
    + exists m. split; auto. apply in_or_app. right. now right.
  - eapply excl_set; eauto. cbn. intros l' m N Hl. left. exists m. split; auto. rewrite H1. apply in_app_or in Hl. apply in_or_app.
    destruct Hl; [now left | right; now right].
  - eapply excl_set; eauto. cbn. intros l' m N [[= <- <-] | Hl]; [congruence | eauto].
  - eapply excl_set; eauto. cbn. intros l' m N Hl. left. exists m. split; auto. rewrite H1. apply in_app_or in Hl. apply in_or_app.
    destruct Hl; [now left | right; now right].
  - apply excl_snoc; auto. eapply (excl_set s); eauto.
Qed.
Lemma excl_estep s s' : excl s -> estep s s' -> excl s'.
Proof.
  intros X St. destruct St.
  - destruct s. now apply excl_snoc.
  - eapply (excl_set s); eauto.
Qed.
Lemma excl_reached w s : reached w s -> excl s.
Proof.
  induction 1; [|eapply excl_estep; eauto | eapply excl_istep; eauto].
  intros [|[|[|i]]] j t u l m m' Hi Hj Li; cbn in Hi; try (injection Hi as <-; destruct Li). destruct i; discriminate.
Qed.

Definition shared (s : state) : Prop := forall l i j t u,
  nth_error (s_threads s) i = Some t -> nth_error (s_threads s) j = Some u ->
  In (l, Writing) (t_held t) -> In (l, Reading) (t_held u) -> False.
Lemma shared_set s i t t' B n : shared s -> nth_error (s_threads s) i = Some t ->
  (forall l, In (l, Writing) (t_held t') -> In (l, Writing) (t_held t) \/ (not_read s l /\ ~ In (l, Reading) (t_held t'))) ->
  (forall l, In (l, Reading) (t_held t') -> In (l, Reading) (t_held t) \/ (not_written s l /\ ~ In (l, Writing) (t_held t'))) ->
  shared (mkState (upd (s_threads s) i t') B n).
Proof.
  intros X Hi W Rd l a b ta tb Ha Hb La Lb. cbn [s_threads] in *.
  destruct (nth_upd _ _ _ _ _ _ Hi Ha) as [[<- ->] | [Na' Ha']]; destruct (nth_upd _ _ _ _ _ _ Hi Hb) as [[<- ->] | [Nb' Hb']].
  - destruct (W _ La) as [La' | [_ N]]; [|now apply N]. destruct (Rd _ Lb) as [Lb' | [_ N]]; [|now apply N].
    eapply (X l i i); eauto.
  - destruct (W _ La) as [La' | [N _]]; [eapply (X l i b t tb); eauto | apply N; exists b, tb; auto].
  - destruct (Rd _ Lb) as [Lb' | [[N _] _]]; [eapply (X l a i ta t); eauto | apply N; exists a, ta; auto].
  - eapply (X l a b ta tb); eauto.
Qed.
Lemma shared_snoc L B n t : t_held t = [] -> shared (mkState L B n) -> shared (mkState (L ++ [t]) B n).
Proof.
  intros E X l i j ti tj Hi Hj Li Lj. cbn [s_threads] in *.
  apply nth_snoc in Hi. apply nth_snoc in Hj.
  destruct Hi as [[Hi1 Hi] | [-> ->]]; [|rewrite E in Li; destruct Li].
  destruct Hj as [[Hj1 Hj] | [-> ->]]; [|rewrite E in Lj; destruct Lj].
  eapply (X l i j); cbn [s_threads]; eauto.
Qed.
Lemma shared_istep w s x s' : shared s -> istep w s x s' -> shared s'.
Proof.
  intros X St.
  assert (Drop : forall i t l m h1 h2, nth_error (s_threads s) i = Some t -> t_held t = h1 ++ (l, m) :: h2 -> forall k,
            shared (set_thread s i (goes t k (h1 ++ h2)))).
  { intros i t l m h1 h2 Hi E k.
    assert (Sub : forall y, In y (h1 ++ h2) -> In y (t_held t)).
    { intros y Hy. rewrite E. apply in_app_or in Hy. apply in_or_app. destruct Hy; [now left | right; now right]. }
    eapply (shared_set s); eauto; cbn; auto. }
  destruct St; try (eapply (shared_set s); eauto; cbn; eauto; fail); try (eapply Drop; eauto; fail).
  - eapply (shared_set s); eauto; cbn; intros l' [[=] | Hl]; auto.
  - eapply (shared_set s); eauto; cbn; intros l' Hl.
    + apply in_app_or in Hl. destruct Hl as [Hl | [[= <-] | Hl]].
      * left. rewrite H1. apply in_or_app. now left.
      * right. split; auto. intros Hx. apply H2. exists i, t. split; auto. rewrite H1. apply in_app_or in Hx. apply in_or_app.
        destruct Hx as [Hx | [[=] | Hx]]; [now left | right; now right].
      * left. rewrite H1. apply in_or_app. right. now right.
    + left. rewrite H1. apply in_app_or in Hl. apply in_or_app. destruct Hl as [Hx | [[=] | Hx]]; [now left | right; now right].
  - eapply (shared_set s); eauto; cbn; intros l' [[= <-] | Hl]; auto. right. split; auto. intros [[=] | Hw].
    destruct H1 as [N _]. apply N. exists i, t. auto.
  - apply shared_snoc; auto. eapply (shared_set s); eauto; cbn; auto.
Qed.
Lemma shared_estep s s' : shared s -> estep s s' -> shared s'.
Proof.
  intros X St. destruct St.
  - destruct s. now apply shared_snoc.
  - eapply (shared_set s); eauto; cbn; auto.
Qed.
Lemma shared_reached w s : reached w s -> shared s.
Proof.
  induction 1; [|eapply shared_estep; eauto | eapply shared_istep; eauto].
  intros l [|[|[|i]]] j t u Hi Hj Li; cbn in Hi; try (injection Hi as <-; destruct Li). destruct i; discriminate.
Qed.

(** * A server that does not answer *)
Section Silent.
Variable w : world.
Hypothesis silent : w_net w = false.
Definition taken (s : state) : Prop :=
  exists i t k, nth_error (s_threads s) i = Some t /\ t_ops t = Net :: k /\ In (Z, Writing) (t_held t).

Lemma taken_set s i t t' B m : taken s -> nth_error (s_threads s) i = Some t -> (forall k, t_ops t <> Net :: k) ->
  taken (mkState (upd (s_threads s) i t') B m).
Proof.
  intros (j & u & k & Hj & Ho & Hl) Hi N. exists j, u, k. split; auto. cbn [s_threads]. rewrite nth_upd_ne; auto.
  intros ->. rewrite Hi in Hj. injection Hj as ->. now apply (N k).
Qed.
Lemma taken_snoc L B m t : taken (mkState L B m) -> taken (mkState (L ++ [t]) B m).
Proof.
  intros (j & u & k & Hj & Ho & Hl). exists j, u, k. split; auto. cbn [s_threads] in *. rewrite nth_error_app1; auto.
  apply nth_error_Some. congruence.
Qed.
Definition gets_Z (x : nat * option act) : Prop := snd x = Some (Have Z) \/ snd x = Some (RLk Z).

Lemma taken_istep s x s' : excl s -> taken s -> istep w s x s' -> ~ gets_Z x /\ taken s'.
Proof.
  intros X T St.
  assert (NW : ~ not_written s Z).
  { intros [N _]. destruct T as (j & u & k & Hj & Ho & Hl). apply N. exists j, u. auto. }
  destruct St; try (split; [intros [[=] | [=]]; subst; auto|]); try (eapply (taken_set s); eauto; intros; congruence).
  - destruct T as (j & u & k' & Hj & Ho & Hl).
    assert (i = j) as ->.
    { eapply (X i j t u Z Claimed Writing); eauto; try discriminate. rewrite H1. apply in_or_app. right. now left. }
    rewrite H in Hj. injection Hj as ->. congruence.
  - apply taken_snoc. eapply taken_set; eauto; intros; congruence.
Qed.
Lemma taken_estep s s' : taken s -> estep s s' -> taken s'.
Proof.
  intros T St. destruct St.
  - destruct s. now apply taken_snoc.
  - eapply (taken_set s); eauto; intros; congruence.
Qed.
Lemma taken_later s tr s' : excl s -> taken s -> later w s tr s' -> forall x, In x tr -> ~ gets_Z x.
Proof.
  intros X T L. assert (A : excl s' /\ taken s' /\ forall x, In x tr -> ~ gets_Z x); [|apply A].
  induction L as [|tr s1 s2 _ (X1 & T1 & IH) St|tr x s1 s2 _ (X1 & T1 & IH) St].
  - split; [exact X|]. split; [exact T|]. intros x [].
  - split; [eapply excl_estep; eauto|]. split; [eapply taken_estep; eauto | exact IH].
  - destruct (taken_istep _ _ _ X1 T1 St) as [Hx T2]. split; [eapply excl_istep; eauto|]. split; [exact T2|]. intros y Hy. apply in_app_or in Hy.
    destruct Hy as [Hy | [<- | []]]; auto.
Qed.

Lemma way_online : way goOnlineAndPrint [Lk Z; Net; Ul Z; Put Ui line].
Proof.
  unfold goOnlineAndPrint. change [Lk Z; Net; Ul Z; Put Ui line] with ([Lk Z; Net; Ul Z] ++ [Put Ui line]).
  apply W_seq; [|apply W_right, W_left, way_line].
  unfold goOnline. change [Lk Z; Net; Ul Z] with ([Lk Z] ++ ([Net] ++ [] ++ []) ++ [Ul Z]).
  apply W_seq; [apply W_op|]. apply W_seq; [|apply W_op]. apply W_right.
  apply W_seq; [apply W_op|]. apply W_seq; [apply W_left; constructor|]. apply W_left. constructor.
Qed.
Lemma connecting : exists s t k, reached w s /\ nth_error (s_threads s) 3 = Some t /\ t_ops t = Net :: k /\ In (Z, Writing) (t_held t).
Proof.
  set (s0 := mkState (s_threads begin ++ [mkThread [Lk Z; Net; Ul Z; Put Ui line] [] [] None]) (s_box begin) (s_next begin)).
  assert (R0 : reached w s0).
  { eapply R_env; [apply R_begin|]. apply (E_new begin goOnlineAndPrint); [cbn; tauto | apply way_online]. }
  eassert (R1 : reached w _).
  { eapply R_step; [apply R0|]. eapply (I_lock w _ 3); [reflexivity | reflexivity|].
    split; intros (i & t & Hi & Hl); destruct i as [|[|[|[|i]]]]; cbn in Hi; try (injection Hi as <-; destruct Hl); destruct i; discriminate. }
  eassert (R2 : reached w _).
  { eapply R_step; [apply R1|]. eapply (I_have w _ 3 _ Z _ []); [reflexivity | reflexivity | reflexivity|].
    intros (i & t & Hi & Hl); destruct i as [|[|[|[|i]]]]; cbn in Hi;
      try (injection Hi as <-; destruct Hl as [[=]|[]]); try (injection Hi as <-; destruct Hl); destruct i; discriminate. }
  eexists. eexists. eexists. split; [apply R2|]. split; [reflexivity|]. split; [reflexivity | now left].
Qed.
End Silent.
