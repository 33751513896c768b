(** What the status bar, the separators and the lines about the day tell the user. *)
From Verif Require Import Base SeenModel.
From Coq Require Import ZArith Lia.
Local Open Scope Z_scope.

(** * C88 *)

(** ** What happened, newest first *)

(** Something came in a window (and names the user or not), and the user turned to a window. *)
Inductive hap := Came (p : nat) (named : bool) (text : bytes) | Saw (p : nat).

(** The window the user sees; at first the console. *)
Fixpoint seeing (h : list hap) : nat :=
  match h with [] => O | Saw p :: _ => p | Came _ _ _ :: r => seeing r end.
(** All that came in a window, and what came since the user last saw it. *)
Fixpoint came (p : nat) (h : list hap) : list bytes :=
  match h with
  | [] => []
  | Saw _ :: r => came p r
  | Came q _ x :: r => if Nat.eqb q p then came p r ++ [x] else came p r
  end.
Fixpoint unseen (p : nat) (h : list hap) : list (bool * bytes) :=
  match h with
  | [] => []
  | Saw q :: r => if Nat.eqb q p then [] else unseen p r
  | Came q n x :: r => if Nat.eqb q p && negb (Nat.eqb (seeing r) p) then unseen p r ++ [(n, x)] else unseen p r
  end.

(** ** What is done without another goroutine in between *)

Inductive act :=
| APut (k : option nat) (ts : Z) (own : bool) (text : bytes)
| ANamed (k : nat) (ts : Z) (text : bytes)       (* a group message that names the user *)
| ALook (k : nat)
| AOpen
| AClose
| ACloseAll.

Definition index (s : screen) (k : option nat) : nat := match k with Some i => i | None => sc_active s end.
Definition jobs (s : screen) (a : act) : list job :=
  match a with
  | APut k ts own x => [Put k ts own x]
  | ANamed k ts x => match nth_error (sc_wins s) k with
                     | Some v => [Mention (v_id v) k; Put (Some k) ts false x]
                     | None => []
                     end
  | ALook k => [Look k]
  | AOpen => [Open]
  | AClose => if Nat.eqb (sc_active s) 0 then [] else [Shut; Look 0]
  | ACloseAll => [ShutAll; Look 0]
  end.
Definition haps (s : screen) (a : act) : list hap :=
  let id k := nth_error (map v_id (sc_wins s)) k in
  match a with
  | APut k _ _ x => match id (index s k) with Some p => [Came p false x] | None => [] end
  | ANamed k _ x => match id k with Some p => [Came p true x] | None => [] end
  | ALook k => match id k with Some p => [Saw p] | None => [] end
  | AOpen => []
  | AClose => if Nat.eqb (sc_active s) 0 then [] else match id O with Some p => [Saw p] | None => [] end
  | ACloseAll => match id O with Some p => [Saw p] | None => [] end
  end.

Inductive calm (day : Z -> Z * Z * Z) (sep : bool) : screen -> list hap -> Prop :=
| Calm_start : calm day sep start []
| Calm_act : forall s h a s', calm day sep s h -> run day sep s (jobs s a) = Some s' -> calm day sep s' (haps s a ++ h).

(** ** The consoles *)

Definition text_of (x : shown) : list bytes := match x with Line _ _ t => [t] | _ => [] end.
Definition texts (l : list shown) : list bytes := flat_map text_of l.
Definition is_sep (x : shown) : bool := match x with Sep _ => true | _ => false end.
(** What stands below the last separator, or everything if there is none. *)
Fixpoint below (l : list shown) : list shown :=
  match l with
  | [] => []
  | x :: r => if existsb is_sep r then below r else if is_sep x then r else x :: r
  end.

(** The day that the last line about it names. *)
Fixpoint day_after (cur : option (Z * Z * Z)) (l : list shown) : option (Z * Z * Z) :=
  match l with [] => cur | Day d :: r => day_after (Some d) r | _ :: r => day_after cur r end.
(** Each line that came with a time stands under its day. *)
Definition dated (day : Z -> Z * Z * Z) (l : list shown) : Prop :=
  forall above ts x more, l = above ++ Line ts false x :: more -> day_after None above = Some (day ts).
(** No line about the day repeats the one before it. *)
Definition spare (l : list shown) : Prop :=
  forall above d more, l = above ++ Day d :: more -> day_after None above <> Some d.

(** ** Proofs *)

Lemma texts_app a b : texts (a ++ b) = texts a ++ texts b.
Proof. apply flat_map_app. Qed.
Lemma upd_length k f l : length (upd k f l) = length l.
Proof. revert k. induction l as [|v l IH]; intros [|k]; cbn; auto. Qed.
Lemma upd_nth k f l : forall i, nth_error (upd k f l) i = if Nat.eqb i k then option_map f (nth_error l i) else nth_error l i.
Proof.
  revert k. induction l as [|v l IH]; intros k i; [destruct (Nat.eqb i k), k, i; reflexivity|].
  destruct k as [|k], i as [|i]; cbn [upd nth_error Nat.eqb option_map]; try reflexivity. apply IH.
Qed.
Lemma below_last a ts b : existsb is_sep b = false -> below (a ++ Sep ts :: b) = b.
Proof.
  intros N. induction a as [|x a IH]; cbn [app below]; [now rewrite N|]. rewrite existsb_app. cbn [existsb is_sep]. rewrite orb_true_r. exact IH.
Qed.
Lemma below_none l : existsb is_sep l = false -> below l = l.
Proof. destruct l as [|x l]; [reflexivity|]. cbn [existsb below]. intros H. apply orb_false_iff in H as [H1 H2]. now rewrite H1, H2. Qed.

Section inv.
Variable day : Z -> Z * Z * Z.
Variable sep : bool.

(** What holds of a window: [con] for the console, [act] for the active one, [A] all that came, [U]
    what came unseen. *)
Definition winv (con act : bool) (v : view) (A : list bytes) (U : list (bool * bytes)) : Prop :=
  texts (v_lines v) = A /\
  (act = true -> U = [] /\ v_sep v = false) /\
  v_dirty v = negb (Nat.eqb (length U) 0) /\
  (sep = true -> con = false ->
    if v_sep v
    then U <> [] /\ exists above ts rest, v_lines v = above ++ Sep ts :: rest /\ existsb is_sep rest = false /\
         (texts rest = map snd U \/ A = map snd U /\ texts rest = tl (map snd U))
    else U = [] \/ A = map snd U /\ length U = 1%nat /\ existsb is_sep (v_lines v) = false).

Lemma winv_look con act v A U : winv con act v A U -> winv con true (cleared v) A [].
Proof. intros (H1 & _). split; [exact H1|]. split; [auto|]. split; [reflexivity|]. intros _ _. now left. Qed.
Lemma winv_leave con v A U : winv con true v A U -> winv con false v A U.
Proof. intros (H1 & H2 & H3 & H4). split; [exact H1|]. split; [discriminate|]. auto. Qed.
Lemma winv_new p : winv false false (new_view p) [] [].
Proof. split; [reflexivity|]. split; [discriminate|]. split; [reflexivity|]. intros _ _. now left. Qed.

Lemma update_parts ts v : exists m, v_lines (update_ts day ts v) = v_lines v ++ m /\ texts m = [] /\ existsb is_sep m = false /\
  v_id (update_ts day ts v) = v_id v /\ v_dirty (update_ts day ts v) = v_dirty v /\ v_sep (update_ts day ts v) = v_sep v /\ v_men (update_ts day ts v) = v_men v.
Proof.
  unfold update_ts. cbn [v_lines v_id v_dirty v_sep v_men]. eexists. split; [reflexivity|]. destruct (v_last v =? zero_time); [repeat split|].
  destruct (different_day _ _); repeat split.
Qed.

(** The parts of a window after something is printed in it. *)
Lemma print_parts active k ts own x v : let v' := print_in day sep active k ts own x v in let v1 := separate sep active k ts v in
  exists m, v_lines v' = v_lines v1 ++ m /\ texts m = [x] /\ existsb is_sep m = false /\ v_id v' = v_id v /\
    v_dirty v' = (if Nat.eqb active k then v_dirty v else true) /\ v_sep v' = v_sep v1 /\ v_men v' = v_men v.
Proof.
  cbn zeta. unfold print_in. set (v1 := separate sep active k ts v).
  assert (I : v_id v1 = v_id v /\ v_dirty v1 = v_dirty v /\ v_men v1 = v_men v) by (unfold v1, separate; destruct (_ && _); auto).
  destruct I as (I1 & I2 & I3). clearbody v1. destruct own.
  - exists [Line ts true x]. cbn [v_lines v_id v_dirty v_sep v_men]. rewrite I1, I2, I3. repeat split.
  - destruct (update_parts ts v1) as (m & E1 & E2 & E3 & E4 & E5 & E6 & E7). exists (m ++ [Line ts false x]). cbn [v_lines v_id v_dirty v_sep v_men].
    rewrite E1, E4, E5, E6, E7, I1, I2, I3, texts_app, E2, existsb_app, E3, <- app_assoc. repeat split.
Qed.

Lemma winv_print active k ts own x v A U n : winv (Nat.eqb k 0) (Nat.eqb active k) v A U ->
  winv (Nat.eqb k 0) (Nat.eqb active k) (print_in day sep active k ts own x v) (A ++ [x]) (if Nat.eqb active k then U else U ++ [(n, x)]).
Proof.
  intros (H1 & H2 & H3 & H4). destruct (print_parts active k ts own x v) as (m & E1 & E2 & E3 & E4 & E5 & E6 & E7).
  set (v' := print_in day sep active k ts own x v) in *. clearbody v'. unfold separate in E1, E6.
  destruct (Nat.eqb active k) eqn:Ea; cbn [negb andb] in E1, E6.
  - destruct (H2 eq_refl) as [-> S]. split; [rewrite E1, texts_app, E2, H1; reflexivity|]. split; [intros _; rewrite E6; auto|].
    split; [now rewrite E5|]. intros Hs Hc. rewrite E6, S. now left.
  - split.
    { rewrite E1, texts_app, E2, <- H1. f_equal. destruct (_ && _); [|reflexivity]. cbn [v_lines]. rewrite texts_app. apply app_nil_r. }
    split; [discriminate|]. split; [rewrite E5, app_length; destruct (length U); reflexivity|].
    intros Hs Hc. specialize (H4 Hs Hc). rewrite Hs, Hc in *. cbn [negb andb] in E1, E6. rewrite andb_true_r in E1, E6.
    assert (TL : forall l : list bytes, l <> [] -> tl (l ++ [x]) = tl l ++ [x]) by (intros [|y l]; [congruence|reflexivity]).
    destruct (v_sep v) eqn:Sv; cbn [negb] in E1, E6.
    + rewrite andb_false_r in E1, E6. rewrite E6, Sv. destruct H4 as (NE & ab & t0 & rest & L & NS & T). split; [destruct U; discriminate|].
      exists ab, t0, (rest ++ m). split; [rewrite E1, L, <- app_assoc; reflexivity|]. split; [now rewrite existsb_app, NS, E3|].
      rewrite texts_app, E2, map_app. cbn [map snd]. destruct T as [T|[T1 T2]]; [left; now rewrite T|right]. split; [now rewrite T1|].
      rewrite T2, TL; [reflexivity|]. destruct U; [congruence|discriminate].
    + rewrite andb_true_r in E1, E6. destruct (v_lines v) as [|l0 lr] eqn:El.
      * cbn [length Nat.eqb negb] in E1, E6. rewrite El in E1. cbn [app] in E1. cbn in H1. subst A. rewrite E6, Sv. right.
        destruct H4 as [->|(HA & HL & _)]; [|destruct U; discriminate]. cbn [app map snd length]. rewrite E1. repeat split. exact E3.
      * cbn [length Nat.eqb negb] in E1, E6. cbn [v_lines v_sep] in E1, E6. rewrite E6. split; [destruct U; discriminate|].
        exists (l0 :: lr), ts, m. split; [rewrite E1, <- app_assoc; reflexivity|]. split; [exact E3|]. rewrite E2, map_app. cbn [map snd].
        destruct H4 as [->|(HA & HL & _)]; [now left|right]. destruct U as [|u [|? ?]]; try discriminate. cbn [map snd app tl]. rewrite HA. auto.
Qed.

Lemma men_print active k ts own x v : v_men (print_in day sep active k ts own x v) = v_men v.
Proof. now destruct (print_parts active k ts own x v) as (m & _ & _ & _ & _ & _ & _ & E). Qed.
Lemma id_print active k ts own x v : v_id (print_in day sep active k ts own x v) = v_id v.
Proof. now destruct (print_parts active k ts own x v) as (m & _ & _ & _ & E & _ & _ & _). Qed.

Definition sinv (s : screen) (h : list hap) : Prop :=
  (forall i j v w, nth_error (sc_wins s) i = Some v -> nth_error (sc_wins s) j = Some w -> v_id v = v_id w -> i = j) /\
  (forall i v, nth_error (sc_wins s) i = Some v -> (v_id v < sc_next s)%nat) /\
  (forall p, (sc_next s <= p)%nat -> came p h = [] /\ unseen p h = []) /\
  (exists v, nth_error (sc_wins s) (sc_active s) = Some v /\ seeing h = v_id v) /\
  (forall i v, nth_error (sc_wins s) i = Some v ->
     winv (Nat.eqb i 0) (Nat.eqb (sc_active s) i) v (came (v_id v) h) (unseen (v_id v) h) /\ v_men v = existsb fst (unseen (v_id v) h)).

Lemma sinv_start : sinv start [].
Proof.
  assert (O : forall i v, nth_error (sc_wins start) i = Some v -> i = O /\ v = new_view 0) by (intros [|[|i]] v E; try discriminate; now injection E as <-).
  split; [intros i j v w Ev Ew _; apply O in Ev as [-> _]; apply O in Ew as [-> _]; reflexivity|].
  split; [intros i v E; apply O in E as [_ ->]; cbn; lia|]. split; [now split|]. split; [exists (new_view 0); split; reflexivity|].
  intros i v E. apply O in E as [-> ->]. split; [|reflexivity]. split; [reflexivity|]. split; [auto|]. split; [reflexivity|]. intros _ Hc. discriminate.
Qed.

(** Turning to a window, after some may have been removed. *)
Lemma sinv_look s h ws g k v : sinv s h -> (forall i j, g i = g j -> i = j) -> (forall j, Nat.eqb (g j) 0 = Nat.eqb j 0) ->
  (forall j w, nth_error ws j = Some w -> nth_error (sc_wins s) (g j) = Some w) -> nth_error ws k = Some v ->
  sinv (mkScreen (upd k cleared ws) k (sc_next s)) (Saw (v_id v) :: h).
Proof.
  intros (I1 & I2 & I3 & I4 & I5) Gi G0 G Ev. unfold sinv. cbn [sc_wins sc_active sc_next].
  assert (U : forall j w, nth_error (upd k cleared ws) j = Some w -> exists w0, nth_error ws j = Some w0 /\ w = (if Nat.eqb j k then cleared w0 else w0) /\ v_id w = v_id w0).
  { intros j w. rewrite upd_nth. destruct (Nat.eqb j k); destruct (nth_error ws j) as [w0|]; cbn [option_map]; intros E; try discriminate; injection E as <-; exists w0; auto. }
  split.
  { intros i j a b Ea Eb Eq. apply U in Ea as (a0 & Ea & _ & Ia). apply U in Eb as (b0 & Eb & _ & Ib). apply Gi. apply (I1 _ _ a0 b0); auto; congruence. }
  split; [intros i w E; apply U in E as (w0 & E & _ & ->); now apply (I2 (g i) w0), G|].
  split. { intros p Hp. destruct (I3 p Hp) as [X Y]. cbn [came unseen]. split; [exact X|]. destruct (Nat.eqb (v_id v) p); auto. }
  split. { exists (cleared v). split; [rewrite upd_nth, Nat.eqb_refl, Ev; reflexivity|reflexivity]. }
  intros i w E. apply U in E as (w0 & E & Ew & ->). cbn [came unseen]. destruct (I5 _ _ (G _ _ E)) as [W M]. rewrite G0 in W.
  destruct (Nat.eqb_spec i k) as [->|D].
  - rewrite Nat.eqb_refl. replace w0 with v in * by congruence. rewrite Nat.eqb_refl. subst w. split; [|reflexivity]. now apply winv_look in W.
  - destruct (Nat.eqb_spec k i) as [X|_]; [congruence|]. subst w.
    destruct (Nat.eqb_spec (v_id v) (v_id w0)) as [X|_]; [exfalso; apply D; apply Gi; symmetry; apply (I1 _ _ v w0); auto|].
    split; [|exact M]. destruct (Nat.eqb (sc_active s) (g i)); [now apply winv_leave|exact W].
Qed.

(** Something comes in a window. *)
Lemma sinv_put s h ws i c v ts own x n : sinv s h -> nth_error (sc_wins s) i = Some v ->
  (forall j, nth_error ws j = if Nat.eqb j i then Some (print_in day sep (sc_active s) i ts own x (c v)) else nth_error (sc_wins s) j) ->
  c v = v \/ c v = coloured v ->
  v_men (c v) = existsb fst (if Nat.eqb (sc_active s) i then unseen (v_id v) h else unseen (v_id v) h ++ [(n, x)]) ->
  sinv (mkScreen ws (sc_active s) (sc_next s)) (Came (v_id v) n x :: h).
Proof.
  intros (I1 & I2 & I3 & I4 & I5) Ev Ws Cv Mn. unfold sinv. cbn [sc_wins sc_active sc_next].
  assert (Ic : v_id (c v) = v_id v) by (destruct Cv as [->| ->]; reflexivity).
  assert (U : forall j w, nth_error ws j = Some w -> exists w0, nth_error (sc_wins s) j = Some w0 /\ v_id w = v_id w0 /\
      w = (if Nat.eqb j i then print_in day sep (sc_active s) i ts own x (c v) else w0)).
  { intros j w. rewrite Ws. destruct (Nat.eqb_spec j i) as [->|D]; intros E.
    - injection E as <-. exists v. split; [exact Ev|]. split; [now rewrite id_print|reflexivity].
    - exists w. auto. }
  assert (See : Nat.eqb (seeing h) (v_id v) = Nat.eqb (sc_active s) i).
  { destruct I4 as (va & Ea & ->). destruct (Nat.eqb_spec (sc_active s) i) as [E|D]; [rewrite E in Ea; apply Nat.eqb_eq; congruence|]. apply Nat.eqb_neq. intros X. apply D. now apply (I1 _ _ va v). }
  split. { intros a b va vb Ea Eb Eq. apply U in Ea as (a0 & Ea & Ia & _). apply U in Eb as (b0 & Eb & Ib & _). apply (I1 _ _ a0 b0); auto; congruence. }
  split; [intros a w E; apply U in E as (w0 & E & -> & _); now apply (I2 a w0)|].
  split. { intros p Hp. pose proof (I2 _ _ Ev). cbn [came unseen]. destruct (Nat.eqb_spec (v_id v) p); [lia|]. cbn [andb]. now apply I3. }
  split. { destruct I4 as (va & Ea & Sa). rewrite Ws. cbn [seeing]. destruct (Nat.eqb_spec (sc_active s) i) as [E|D]; [|now exists va].
    eexists. split; [reflexivity|]. rewrite id_print, Ic, Sa. congruence. }
  intros j w E. apply U in E as (w0 & E & Iw & Ew). rewrite Iw. cbn [came unseen]. destruct (I5 _ _ E) as [W M].
  destruct (Nat.eqb_spec j i) as [->|D].
  - replace w0 with v in * by congruence. rewrite Nat.eqb_refl. cbn [andb]. rewrite See.
    assert (Wc : winv (Nat.eqb i 0) (Nat.eqb (sc_active s) i) (c v) (came (v_id v) h) (unseen (v_id v) h)) by (destruct Cv as [->| ->]; exact W).
    split; [|subst w; rewrite men_print, Mn; now destruct (Nat.eqb (sc_active s) i)].
    subst w. pose proof (winv_print (sc_active s) i ts own x (c v) _ _ n Wc) as R. destruct (Nat.eqb (sc_active s) i); exact R.
  - destruct (Nat.eqb_spec (v_id v) (v_id w0)) as [X|_]; [exfalso; apply D; symmetry; now apply (I1 _ _ v w0)|]. cbn [andb]. subst w. auto.
Qed.

Lemma ids_nth s k : nth_error (map v_id (sc_wins s)) k = option_map v_id (nth_error (sc_wins s) k).
Proof. apply nth_error_map. Qed.

Lemma upd_out k f l : nth_error l k = None -> upd k f l = l.
Proof. revert k. induction l as [|v l IH]; intros [|k] E; cbn in *; try reflexivity; [discriminate|]. now rewrite IH. Qed.

Lemma sinv_act s h a s' : sinv s h -> run day sep s (jobs s a) = Some s' -> sinv s' (haps s a ++ h).
Proof.
  intros I R. pose proof I as (I1 & I2 & I3 & I4 & I5). destruct a as [k ts own x|k ts x|k| | |]; cbn [jobs haps] in *; rewrite ?ids_nth.
  - (* a line *)
    cbn [run] in R. destruct (step day sep s (Put k ts own x)) as [s1|] eqn:E; [|discriminate]. injection R as <-. cbn [step] in E. change (match k with Some i => i | None => sc_active s end) with (index s k) in E.
    cbn [sc_active sc_wins] in E. destruct (Nat.ltb _ _); [|discriminate]. injection E as <-. destruct (nth_error (sc_wins s) (index s k)) as [v|] eqn:Ev; cbn [option_map app].
    + apply (sinv_put s h _ (index s k) (fun v => v) v ts own x false I Ev); [|now left|].
      * intros j. rewrite upd_nth. destruct (Nat.eqb_spec j (index s k)) as [->|]; [now rewrite Ev|reflexivity].
      * destruct (I5 _ _ Ev) as [_ M]. rewrite M. destruct (Nat.eqb (sc_active s) (index s k)); [reflexivity|]. rewrite existsb_app. cbn. now rewrite !orb_false_r.
    + rewrite upd_out by exact Ev. destruct s; exact I.
  - (* a line that names the user *)
    destruct (nth_error (sc_wins s) k) as [v|] eqn:Ev; cbn [option_map app] in *; [|cbn in R; injection R as <-; exact I].
    destruct (I5 _ _ Ev) as [_ M]. cbn [run] in R. unfold step at 1 in R. destruct (Nat.eqb_spec (sc_active s) k) as [Ea|Na].
    + destruct (step day sep s (Put (Some k) ts false x)) as [s1|] eqn:E; [|discriminate]. injection R as <-. cbn [step sc_active sc_wins] in E. destruct (Nat.ltb _ _); [|discriminate]. injection E as <-.
      apply (sinv_put s h _ k (fun v => v) v ts false x true I Ev); [|now left|].
      * intros j. rewrite upd_nth. destruct (Nat.eqb_spec j k) as [->|]; [now rewrite Ev|reflexivity].
      * rewrite M. apply Nat.eqb_eq in Ea. now rewrite Ea.
    + set (ws := map _ (sc_wins s)) in R. destruct (step day sep _ (Put (Some k) ts false x)) as [s1|] eqn:E; [|discriminate]. injection R as <-. cbn [step sc_active sc_wins sc_next] in E. destruct (Nat.ltb _ _); [|discriminate]. injection E as <-.
      apply (sinv_put s h _ k coloured v ts false x true I Ev); [|now right|].
      * intros j. rewrite upd_nth. unfold ws. rewrite nth_error_map. destruct (Nat.eqb_spec j k) as [->|D]; [rewrite Ev; cbn [option_map]; now rewrite Nat.eqb_refl|].
        destruct (nth_error (sc_wins s) j) as [w|] eqn:Ew; cbn [option_map]; [|reflexivity]. destruct (Nat.eqb_spec (v_id w) (v_id v)) as [X|]; [exfalso; apply D; now apply (I1 _ _ w v)|reflexivity].
      * apply Nat.eqb_neq in Na. rewrite Na, existsb_app. cbn. now rewrite orb_true_r.
  - (* another window *)
    cbn [run] in R. destruct (step day sep s (Look k)) as [s1|] eqn:E; [|discriminate]. injection R as <-. cbn [step] in E.
    destruct (nth_error (sc_wins s) k) as [v|] eqn:Ev; cbn [option_map app].
    + destruct (negb (Nat.eqb k 0) && Nat.eqb k (sc_active s)) eqn:C.
      * injection E as <-. apply andb_true_iff in C as [_ C]. apply Nat.eqb_eq in C. subst k. destruct I4 as (va & Ea & Sa). replace va with v in * by congruence.
        destruct (I5 _ _ Ev) as [(_ & A & _) _]. rewrite Nat.eqb_refl in A. destruct (A eq_refl) as [U0 _].
        assert (Ue : forall p, unseen p (Saw (v_id v) :: h) = unseen p h). { intros p. cbn [unseen]. destruct (Nat.eqb_spec (v_id v) p) as [<-|]; [now rewrite U0|reflexivity]. }
        split; [exact I1|]. split; [exact I2|]. split; [intros p Hp; rewrite Ue; exact (I3 p Hp)|]. split; [now exists v|]. intros i w Ew. rewrite Ue. exact (I5 i w Ew).
      * destruct (Nat.ltb_spec k (length (sc_wins s))) as [_|L]; [|apply nth_error_None in L; congruence]. cbn [sc_active sc_wins] in E. destruct (Nat.ltb _ _); [|discriminate]. injection E as <-.
        apply (sinv_look s h (sc_wins s) (fun j => j) k v I); auto.
    + destruct (negb _ && _); [now injection E as <-|]. destruct (Nat.ltb_spec k (length (sc_wins s))) as [L|_]; [|now injection E as <-]. apply nth_error_Some in L. congruence.
  - (* a new window *)
    cbn in R. injection R as <-. cbn [app]. unfold sinv. cbn [sc_wins sc_active sc_next].
    assert (U : forall j w, nth_error (sc_wins s ++ [new_view (sc_next s)]) j = Some w -> nth_error (sc_wins s) j = Some w \/ j = length (sc_wins s) /\ w = new_view (sc_next s)).
    { intros j w E. destruct (Nat.lt_ge_cases j (length (sc_wins s))) as [L|L]; [left; now rewrite nth_error_app1 in E|].
      right. rewrite nth_error_app2 in E by exact L. destruct (j - length (sc_wins s))%nat as [|[|m]] eqn:Em; cbn in E; try discriminate. injection E as <-. split; [lia|reflexivity]. }
    assert (La : (sc_active s < length (sc_wins s))%nat) by (destruct I4 as (va & Ea & _); apply nth_error_Some; congruence).
    split. { intros i j v w Ev Ew Eq. apply U in Ev as [Ev|[-> ->]]; apply U in Ew as [Ew|[-> ->]]; [now apply (I1 _ _ v w)| | |reflexivity].
      - apply I2 in Ev. cbn in Eq. lia.
      - apply I2 in Ew. cbn in Eq. lia. }
    split. { intros i v Ev. apply U in Ev as [Ev|[-> ->]]; [apply I2 in Ev; lia|cbn; lia]. }
    split; [intros p Hp; apply I3; lia|].
    split. { destruct I4 as (va & Ea & Sa). exists va. split; [now rewrite nth_error_app1|exact Sa]. }
    intros i v Ev. apply U in Ev as [Ev|[-> ->]]; [now apply I5|]. cbn [v_id new_view]. destruct (I3 (sc_next s) (le_n _)) as [-> ->]. split; [|reflexivity].
    destruct (Nat.eqb_spec (sc_active s) (length (sc_wins s))) as [X|_]; [lia|]. destruct (Nat.eqb_spec (length (sc_wins s)) 0) as [X|_]; [lia|]. apply winv_new.
  - (* /wc *)
    destruct (Nat.eqb_spec (sc_active s) 0) as [A0|A0]; [cbn in R; injection R as <-; exact I|].
    assert (La : (sc_active s < length (sc_wins s))%nat) by (destruct I4 as (va & Ea & _); apply nth_error_Some; congruence).
    cbn [run] in R. unfold step at 1 in R. destruct (Nat.eqb_spec (sc_active s) 0) as [X|_]; [congruence|]. destruct (Nat.ltb_spec (sc_active s) (length (sc_wins s))) as [_|X]; [|lia].
    cbn [negb orb] in R. set (ws := firstn _ _ ++ skipn _ _) in R. cbn [step negb Nat.eqb andb sc_active sc_wins sc_next] in R.
    assert (N0 : nth_error ws 0 = nth_error (sc_wins s) 0). { unfold ws. destruct (sc_wins s) as [|v0 l]; [cbn in La; lia|]. destruct (sc_active s) as [|i]; [congruence|]. reflexivity. }
    destruct (nth_error (sc_wins s) 0) as [v|] eqn:Ev; [|apply nth_error_None in Ev; lia]. cbn [option_map app].
    destruct (Nat.ltb_spec 0 (length ws)) as [_|X]; [|exfalso; apply nth_error_None in X; congruence].
    destruct (Nat.ltb _ _); [|discriminate]. injection R as <-.
    apply (sinv_look s h ws (fun j => if Nat.ltb j (sc_active s) then j else S j) 0 v I); [| | |exact N0].
    + intros i j. destruct (Nat.ltb_spec i (sc_active s)), (Nat.ltb_spec j (sc_active s)); lia.
    + intros [|j]; [destruct (Nat.ltb_spec 0 (sc_active s)); [reflexivity|lia]|]. destruct (Nat.ltb _ _); reflexivity.
    + intros j w. unfold ws. assert (Lf : length (firstn (sc_active s) (sc_wins s)) = sc_active s) by (rewrite firstn_length; lia).
      destruct (Nat.ltb_spec j (sc_active s)) as [L|L].
      * rewrite nth_error_app1 by lia. rewrite <- (firstn_skipn (sc_active s) (sc_wins s)) at 2. rewrite nth_error_app1 by lia. auto.
      * rewrite nth_error_app2 by lia. rewrite Lf. intros E. rewrite <- (firstn_skipn (S (sc_active s)) (sc_wins s)), nth_error_app2 by (rewrite firstn_length; lia).
        rewrite firstn_length, Nat.min_l by lia. exact E.
  - (* closeAll *)
    assert (La : (sc_active s < length (sc_wins s))%nat) by (destruct I4 as (va & Ea & _); apply nth_error_Some; congruence).
    cbn [run step negb Nat.eqb andb sc_active sc_wins sc_next] in R. set (ws := firstn 1 _) in R.
    destruct (nth_error (sc_wins s) 0) as [v|] eqn:Ev; [|apply nth_error_None in Ev; lia]. cbn [option_map app].
    assert (Ew : ws = [v]). { unfold ws. destruct (sc_wins s); [discriminate|]. cbn in *. congruence. }
    rewrite Ew in R. cbn in R. injection R as <-.
    apply (sinv_look s h [v] (fun j => j) 0 v I); auto. intros [|[|j]] w E; try discriminate. cbn in E. congruence.
Qed.

Lemma calm_sinv s h : calm day sep s h -> sinv s h.
Proof. induction 1 as [|s h a s' _ IH R]; [apply sinv_start|now apply (sinv_act s)]. Qed.
End inv.

Lemma status_from_In l : forall k0 k m, In (k, m) (status_from k0 l) <-> exists i v, k = (k0 + i)%nat /\ nth_error l i = Some v /\ v_dirty v = true /\ v_men v = m.
Proof.
  induction l as [|v l IH]; intros k0 k m; cbn [status_from].
  - split; [intros []|]. intros ([|i] & w & _ & E & _); discriminate.
  - rewrite in_app_iff, IH. split.
    + intros [I|(i & w & -> & E & D & M)].
      * destruct (v_dirty v) eqn:D; [|destruct I]. destruct I as [I|[]]. injection I as <- <-. exists O, v. repeat split; auto.
      * exists (S i), w. repeat split; auto. lia.
    + intros ([|i] & w & -> & E & D & M).
      * left. injection E as ->. rewrite D, <- M. left. f_equal. lia.
      * right. exists i, w. repeat split; auto. lia.
Qed.

(** C88: the status bar lists exactly the windows in which something came that the user has not seen,
    and colours those where a message that names the user is among it. *)
Theorem C88_status : forall day sep s h, calm day sep s h -> forall k m,
  In (k, m) (status s) <-> exists p, nth_error (map v_id (sc_wins s)) k = Some p /\ unseen p h <> [] /\ m = existsb fst (unseen p h).
Proof.
  intros day sep s h C k m. destruct (calm_sinv day sep s h C) as (_ & _ & _ & _ & I). unfold status. rewrite status_from_In, ids_nth. split.
  - intros (i & v & -> & E & D & <-). cbn [plus]. exists (v_id v). rewrite E. split; [reflexivity|]. destruct (I _ _ E) as [(_ & _ & Dv & _) M].
    split; [|exact M]. intros X. rewrite X in Dv. cbn in Dv. congruence.
  - intros (p & E & U & ->). destruct (nth_error (sc_wins s) k) as [v|] eqn:Ev; [|discriminate]. injection E as <-. destruct (I _ _ Ev) as [(_ & _ & Dv & _) M].
    exists k, v. repeat split; auto. rewrite Dv. destruct (unseen (v_id v) h); [congruence|reflexivity].
Qed.
Print Assumptions C88_status.

(** C88: all that came in a window is in its console, in order; and if there is something unseen, then
    with the separators on it is what stands below the last of them, except that the first
    line of a window that the user never saw stands above it. *)
Theorem C88_separator : forall day s h k v, calm day true s h -> nth_error (sc_wins s) (S k) = Some v -> unseen (v_id v) h <> [] ->
  texts (below (v_lines v)) = map snd (unseen (v_id v) h) \/
  (came (v_id v) h = map snd (unseen (v_id v) h) /\ texts (below (v_lines v)) = tl (map snd (unseen (v_id v) h))).
Proof.
  intros day s h k v C E U. destruct (calm_sinv day true s h C) as (_ & _ & _ & _ & I). destruct (I _ _ E) as [(T & _ & _ & W) _]. specialize (W eq_refl eq_refl).
  destruct (v_sep v).
  - destruct W as (_ & ab & ts & rest & -> & NS & D). rewrite below_last by exact NS. exact D.
  - destruct W as [W|(A & L & NS)]; [congruence|]. left. rewrite below_none by exact NS. now rewrite T.
Qed.
Print Assumptions C88_separator.
Theorem C88_complete : forall day sep s h k v, calm day sep s h -> nth_error (sc_wins s) k = Some v -> texts (v_lines v) = came (v_id v) h.
Proof. intros day sep s h k v C E. destruct (calm_sinv day sep s h C) as (_ & _ & _ & _ & I). now destruct (I _ _ E) as [(T & _) _]. Qed.
Print Assumptions C88_complete.

(** ** Days, whatever the goroutines do *)

Lemma day_after_app a b : forall cur, day_after cur (a ++ b) = day_after (day_after cur a) b.
Proof. induction a as [|[| |] a IH]; intros cur; cbn [app day_after]; auto. Qed.
Lemma split_last {A} (l : list A) x a y m : l ++ [x] = a ++ y :: m -> (m = [] /\ a = l /\ y = x) \/ (exists m', m = m' ++ [x] /\ l = a ++ y :: m').
Proof.
  intros E. destruct (exists_last (l := y :: m)) as (m0 & z & Em); [discriminate|]. rewrite Em, app_assoc in E. apply app_inj_tail in E as [E1 E2]. subst z.
  destruct m0 as [|y0 m0]; [left|right]; cbn in Em.
  - injection Em as -> ->. rewrite app_nil_r in E1. auto.
  - injection Em as <- ->. exists m0. auto.
Qed.

Definition dinv (day : Z -> Z * Z * Z) (v : view) : Prop :=
  dated day (v_lines v) /\ (v_last v <> zero_time -> day_after None (v_lines v) = Some (day (v_last v))).
Definition finv (v : view) : Prop :=
  spare (v_lines v) /\ (v_last v = zero_time -> day_after None (v_lines v) = None).

Lemma dated_more day l x : dated day l -> match x with Line ts false _ => day_after None l = Some (day ts) | _ => True end -> dated day (l ++ [x]).
Proof.
  intros D C ab ts t m E. apply split_last in E as [(-> & -> & <-)|(m' & -> & E)]; [exact C|]. now apply (D ab ts t m').
Qed.
Lemma spare_more l x : spare l -> match x with Day d => day_after None l <> Some d | _ => True end -> spare (l ++ [x]).
Proof.
  intros D C ab d m E. apply split_last in E as [(-> & -> & <-)|(m' & -> & E)]; [exact C|]. now apply (D ab d m').
Qed.
Lemma different_spec a b : different_day a b = false <-> a = b.
Proof.
  destruct a as [[y m] d], b as [[y' m'] d']. cbn. rewrite !orb_false_iff, !negb_false_iff, !Z.eqb_eq. split; [intros [[-> ->] ->]; reflexivity|intros [= -> -> ->]; auto].
Qed.

Lemma separate_days day sep active k ts v : dinv day v -> dinv day (separate sep active k ts v).
Proof.
  unfold separate. destruct (_ && _); [|auto]. intros [D L]. split; cbn [v_lines v_last]; [apply dated_more; auto|]. intros N. rewrite day_after_app. cbn. auto.
Qed.
Lemma print_days day sep active k ts own x v : dinv day v -> dinv day (print_in day sep active k ts own x v).
Proof.
  intros I. apply (separate_days day sep active k ts) in I. unfold print_in. set (v1 := separate _ _ _ _ _) in *. clearbody v1. destruct I as [D L]. destruct own.
  - split; cbn [v_lines v_last]; [now apply dated_more|]. intros N. rewrite day_after_app. cbn. auto.
  - unfold update_ts. cbn [v_lines v_last]. destruct (Z.eqb_spec (v_last v1) zero_time) as [Ez|Nz]; [|destruct (different_day (day ts) (day (v_last v1))) eqn:Df].
    + split; cbn [v_lines v_last].
      * apply dated_more; [now apply dated_more|]. rewrite day_after_app. reflexivity.
      * intros _. rewrite !day_after_app. reflexivity.
    + split; cbn [v_lines v_last].
      * apply dated_more; [now apply dated_more|]. rewrite day_after_app. reflexivity.
      * intros _. rewrite !day_after_app. reflexivity.
    + apply different_spec in Df. rewrite app_nil_r. split; cbn [v_lines v_last].
      * apply dated_more; auto. rewrite Df. auto.
      * intros _. rewrite day_after_app. cbn. rewrite Df. auto.
Qed.
Lemma print_spare day sep active k ts own x v : own = true \/ ts <> zero_time -> dinv day v -> finv v -> finv (print_in day sep active k ts own x v).
Proof.
  intros O I F. apply (separate_days day sep active k ts) in I. unfold print_in.
  assert (F1 : finv (separate sep active k ts v)).
  { unfold separate. destruct (_ && _); [|auto]. destruct F as [D L]. split; cbn [v_lines v_last]; [apply spare_more; auto|]. intros N. rewrite day_after_app. cbn. auto. }
  clear F. set (v1 := separate _ _ _ _ _) in *. clearbody v1. destruct I as [D L], F1 as [S Z]. destruct own.
  - split; cbn [v_lines v_last]; [now apply spare_more|]. intros N. rewrite day_after_app. cbn. auto.
  - destruct O as [O|O]; [discriminate|]. unfold update_ts. cbn [v_lines v_last]. destruct (Z.eqb_spec (v_last v1) zero_time) as [Ez|Nz]; [|destruct (different_day (day ts) (day (v_last v1))) eqn:Df].
    + split; cbn [v_lines v_last]; [|congruence]. apply spare_more; [|exact I]. apply spare_more; [auto|]. rewrite (Z Ez). discriminate.
    + split; cbn [v_lines v_last]; [|congruence]. apply spare_more; [|exact I]. apply spare_more; [auto|]. rewrite (L Nz). intros [= X].
      symmetry in X. apply different_spec in X. congruence.
    + rewrite app_nil_r. split; cbn [v_lines v_last]; [|congruence]. apply spare_more; auto.
Qed.

(** A property of windows that nothing but printing may change. *)
Lemma run_views (P : view -> Prop) day sep js : forall s s', run day sep s js = Some s' ->
  (forall p, P (new_view p)) -> (forall v, P v -> P (cleared v)) -> (forall v, P v -> P (coloured v)) ->
  (forall k ts own x v a i, In (Put k ts own x) js -> P v -> P (print_in day sep a i ts own x v)) ->
  Forall P (sc_wins s) -> Forall P (sc_wins s').
Proof.
  assert (Up : forall k f l, Forall P l -> (forall v, P v -> P (f v)) -> Forall P (upd k f l)).
  { intros k f l. revert k. induction l as [|v l IH]; intros [|k] F Hf; cbn; auto; inversion F; subst; constructor; auto. }
  induction js as [|j js IH]; intros s s' R Pn Pc Pm Pp F; cbn [run] in R; [now injection R as <-|].
  destruct (step day sep s j) as [s1|] eqn:E; [|discriminate]. apply (IH s1 s' R Pn Pc Pm); [intros k ts own x v a i I; apply (Pp k); now right|].
  clear IH R. destruct j as [k ts own x|k| | | |p k]; cbn [step] in E.
  - cbn [sc_active sc_wins] in E. destruct (Nat.ltb _ _); [|discriminate]. injection E as <-. cbn [sc_wins]. apply Up; [exact F|]. intros v. apply (Pp k). now left.
  - destruct (_ && _); [now injection E as <-|]. destruct (Nat.ltb k _); [|now injection E as <-]. cbn [sc_active sc_wins] in E. destruct (Nat.ltb _ _); [|discriminate]. injection E as <-. now apply Up.
  - injection E as <-. cbn [sc_wins]. apply Forall_app. auto.
  - destruct (_ || _); injection E as <-; [exact F|]. cbn [sc_wins]. rewrite Forall_forall in *. intros v I. apply F. apply in_app_or in I as [I|I].
    + rewrite <- (firstn_skipn (sc_active s) (sc_wins s)). apply in_or_app. now left.
    + rewrite <- (firstn_skipn (S (sc_active s)) (sc_wins s)). apply in_or_app. now right.
  - injection E as <-. cbn [sc_wins]. destruct (sc_wins s) as [|v l]; [constructor|]. inversion F; subst. constructor; [assumption|constructor].
  - destruct (Nat.eqb _ k); injection E as <-; [exact F|]. cbn [sc_wins]. apply Forall_map. eapply Forall_impl; [|exact F]. cbn. intros v Pv. destruct (Nat.eqb _ _); auto.
Qed.

(** C88: above everything that came from others stands its day, whatever the goroutines do; and no line
    repeats the day. *)
Theorem C88_day : forall day sep js s, run day sep start js = Some s -> Forall (fun v => dated day (v_lines v)) (sc_wins s).
Proof.
  intros day sep js s R. assert (F : Forall (dinv day) (sc_wins s)).
  { apply (run_views (dinv day) day sep js start s R); auto.
    - intros p. split; [|now intros []]. intros [|? ?] ts x m E; discriminate.
    - intros k ts own x v a i _. apply print_days.
    - constructor; [|constructor]. split; [|now intros []]. intros [|? ?] ts x m E; discriminate. }
  eapply Forall_impl; [|exact F]. now intros v [D _].
Qed.
Print Assumptions C88_day.
Theorem C88_day_once : forall day sep js s, run day sep start js = Some s ->
  (forall k ts x, In (Put k ts false x) js -> ts <> zero_time) -> Forall (fun v => spare (v_lines v)) (sc_wins s).
Proof.
  intros day sep js s R Nz. assert (N : forall p, dinv day (new_view p) /\ finv (new_view p)).
  { intros p. split; (split; [|try reflexivity; now intros []]).
    - intros [|? ?] ts x m E; discriminate.
    - intros [|? ?] d m E; discriminate. }
  assert (F : Forall (fun v => dinv day v /\ finv v) (sc_wins s)).
  { apply (run_views (fun v => dinv day v /\ finv v) day sep js start s R); auto.
    - intros k ts own x v a i I [D S]. split; [now apply print_days|]. apply print_spare; auto. destruct own; [now left|right; now apply (Nz k ts x)].
    - constructor; [apply N|constructor]. }
  eapply Forall_impl; [|exact F]. now intros v [_ [S _]].
Qed.
Print Assumptions C88_day_once.

(** C88, finding: the user's own lines, and all others with the client's time, do not count: they stand
    under the day of what last came from others. *)
Theorem C88_own_refuted : forall day sep s k v d ts x, nth_error (sc_wins s) k = Some v -> (sc_active s < length (sc_wins s))%nat ->
  day_after None (v_lines v) = Some d -> day ts <> d ->
  exists s' v' above, step day sep s (Put (Some k) ts true x) = Some s' /\ nth_error (sc_wins s') k = Some v' /\
    v_lines v' = above ++ [Line ts true x] /\ day_after None above = Some d.
Proof.
  intros day sep s k v d ts x Ev La D _. eexists. exists (print_in day sep (sc_active s) k ts true x v), (v_lines (separate sep (sc_active s) k ts v)).
  split; [cbn [step sc_active sc_wins]; rewrite upd_length; apply Nat.ltb_lt in La; rewrite La; reflexivity|].
  split; [cbn [sc_wins]; now rewrite upd_nth, Nat.eqb_refl, Ev|]. split; [reflexivity|].
  unfold separate. destruct (_ && _); cbn [v_lines]; [|exact D]. now rewrite day_after_app.
Qed.
Print Assumptions C88_own_refuted.

(** C88, finding: /wc removes the window before the terminal turns to the console.  A line that was on
    its way to it is then put in the window that has its number now, and the status bar
    does not list that window. *)
Theorem C88_closing_refuted : forall day sep s h v ts own x, calm day sep s h -> sc_active s <> O ->
  nth_error (sc_wins s) (S (sc_active s)) = Some v -> unseen (v_id v) h = [] ->
  exists s' v', run day sep s [Shut; Put (Some (sc_active s)) ts own x; Look 0] = Some s' /\ sc_active s' = O /\
    nth_error (sc_wins s') (sc_active s) = Some v' /\ v_id v' = v_id v /\ texts (v_lines v') = came (v_id v) h ++ [x] /\
    forall m, ~ In (sc_active s, m) (status s').
Proof.
  intros day sep s h v ts own x C A0 Ev U. destruct (calm_sinv day sep s h C) as (_ & _ & _ & _ & I5). destruct (I5 _ _ Ev) as [(T & _ & D & _) _]. rewrite U in D. cbn in D.
  assert (L : (S (sc_active s) < length (sc_wins s))%nat) by (apply nth_error_Some; congruence).
  set (ws := firstn (sc_active s) (sc_wins s) ++ skipn (S (sc_active s)) (sc_wins s)).
  assert (Lw : length ws = (length (sc_wins s) - 1)%nat) by (unfold ws; rewrite app_length, firstn_length, skipn_length; lia).
  assert (Nw : nth_error ws (sc_active s) = Some v).
  { unfold ws. rewrite nth_error_app2 by (rewrite firstn_length; lia). rewrite firstn_length, Nat.min_l, Nat.sub_diag by lia.
    rewrite <- Ev. assert (Sk : forall (l : list view) n, nth_error (skipn n l) 0 = nth_error l n) by (induction l as [|y l IHl]; intros [|n]; cbn [skipn nth_error]; auto; apply IHl).
    apply Sk. }
  exists (mkScreen (upd 0 cleared (upd (sc_active s) (print_in day sep (sc_active s) (sc_active s) ts own x) ws)) 0 (sc_next s)).
  exists (print_in day sep (sc_active s) (sc_active s) ts own x v). split; [|split; [reflexivity|]].
  - cbn [run step]. destruct (Nat.eqb_spec (sc_active s) 0) as [X|_]; [congruence|]. destruct (Nat.ltb_spec (sc_active s) (length (sc_wins s))) as [_|X]; [|lia]. cbn [orb negb].
    fold ws. cbn [sc_wins sc_active sc_next]. rewrite upd_length. destruct (Nat.ltb_spec (sc_active s) (length ws)) as [_|X]; [|lia].
    cbn [Nat.eqb negb andb sc_wins sc_active sc_next]. rewrite !upd_length. destruct (Nat.ltb_spec 0 (length ws)) as [_|X]; [|lia]. reflexivity.
  - assert (Nn : nth_error (upd 0 cleared (upd (sc_active s) (print_in day sep (sc_active s) (sc_active s) ts own x) ws)) (sc_active s) = Some (print_in day sep (sc_active s) (sc_active s) ts own x v)).
    { rewrite !upd_nth, Nat.eqb_refl, Nw. destruct (Nat.eqb_spec (sc_active s) 0) as [X|_]; [congruence|reflexivity]. }
    destruct (print_parts day sep (sc_active s) (sc_active s) ts own x v) as (m & E1 & E2 & _ & E4 & E5 & _ & _). rewrite Nat.eqb_refl in E5.
    cbn [sc_wins]. split; [exact Nn|]. split; [exact E4|]. split.
    + rewrite E1, texts_app, E2, <- T. f_equal. unfold separate. rewrite Nat.eqb_refl. reflexivity.
    + intros m0 J. unfold status in J. apply status_from_In in J as (i & w & Ei & Ew & Dw & _). cbn [plus sc_wins] in *. subst i. rewrite Nn in Ew. injection Ew as <-. congruence.
Qed.
Print Assumptions C88_closing_refuted.

(** C88, finding: whether the number is coloured is decided when the message is read, not when it is
    shown.  If the user turns away in between, the window is listed without colour. *)
Theorem C88_mention_refuted : forall day sep s h v ts x, calm day sep s h -> sc_active s <> O -> nth_error (sc_wins s) (sc_active s) = Some v ->
  exists s', run day sep s [Mention (v_id v) (sc_active s); Look 0; Put (Some (sc_active s)) ts false x] = Some s' /\
    In (sc_active s, false) (status s').
Proof.
  intros day sep s h v ts x C A0 Ev. destruct (calm_sinv day sep s h C) as (_ & _ & _ & _ & I5). destruct (I5 _ _ Ev) as [(_ & A & _) M].
  rewrite Nat.eqb_refl in A. destruct (A eq_refl) as [U _]. rewrite U in M. cbn in M.
  assert (L : (sc_active s < length (sc_wins s))%nat) by (apply nth_error_Some; congruence).
  eexists. split.
  - cbn [run step]. rewrite Nat.eqb_refl. cbn [Nat.eqb negb andb]. destruct (Nat.ltb_spec 0 (length (sc_wins s))) as [_|X]; [|lia].
    cbn [sc_wins sc_active sc_next]. rewrite !upd_length. destruct (Nat.ltb_spec 0 (length (sc_wins s))) as [_|X]; [|lia]. cbn [sc_wins sc_active sc_next]. rewrite !upd_length.
    destruct (Nat.ltb_spec 0 (length (sc_wins s))) as [_|X]; [|lia]. reflexivity.
  - unfold status. apply status_from_In. exists (sc_active s), (print_in day sep 0 (sc_active s) ts false x v). split; [reflexivity|]. cbn [sc_wins].
    split; [rewrite !upd_nth, Nat.eqb_refl, Ev; destruct (Nat.eqb_spec (sc_active s) 0) as [X|_]; [congruence|reflexivity]|].
    destruct (print_parts day sep 0 (sc_active s) ts false x v) as (m & _ & _ & _ & _ & E5 & _ & E7). rewrite E5, E7. split; [|exact M].
    destruct (Nat.eqb_spec 0 (sc_active s)) as [X|_]; [congruence|reflexivity].
Qed.
Print Assumptions C88_mention_refuted.

(** A day of 86400 seconds; two windows; one line is seen, then two come, of which one names the user, on
    two days. *)
Definition ex_day (t : Z) : Z * Z * Z := (0, 0, t / 86400).
Fixpoint acts (day : Z -> Z * Z * Z) (sep : bool) (s : screen) (h : list hap) (l : list act) : option (screen * list hap) :=
  match l with
  | [] => Some (s, h)
  | a :: r => match run day sep s (jobs s a) with Some s' => acts day sep s' (haps s a ++ h) r | None => None end
  end.
Lemma acts_calm day sep l : forall s h s' h', calm day sep s h -> acts day sep s h l = Some (s', h') -> calm day sep s' h'.
Proof.
  induction l as [|a l IH]; intros s h s' h' C E; cbn [acts] in E; [now injection E as <- <-|]. destruct (run day sep s (jobs s a)) as [s1|] eqn:R; [|discriminate].
  apply (IH s1 (haps s a ++ h) s' h'); [now apply Calm_act with (s := s)|exact E].
Qed.
Definition ex_acts : list act :=
  [AOpen; AOpen; APut (Some 1%nat) 5 true (bs "started"); ALook 1; APut (Some 1%nat) 90000 false (bs "hi"); ALook 2; APut (Some 1%nat) 90001 false (bs "there");
   ANamed 1 180000 (bs "you?")].
Example C88_case : exists s h, acts ex_day true start [] ex_acts = Some (s, h) /\ calm ex_day true s h /\ status s = [(1%nat, true)] /\
  unseen 1 h = [(false, bs "there"); (true, bs "you?")] /\ unseen 2 h = [] /\
  (exists v, nth_error (sc_wins s) 1 = Some v /\
     v_lines v = [Line 5 true (bs "started"); Day (0, 0, 1); Line 90000 false (bs "hi"); Sep 90001; Line 90001 false (bs "there"); Day (0, 0, 2); Line 180000 false (bs "you?")]).
Proof.
  eexists _, _. split; [vm_compute; reflexivity|]. split; [apply (acts_calm _ _ ex_acts start []); [constructor|vm_compute; reflexivity]|].
  split; [reflexivity|]. split; [reflexivity|]. split; [reflexivity|]. eexists. split; reflexivity.
Qed.
(** Closing a window of three, and looking away from a mention. *)
Example C88_findings_case : exists s h, acts ex_day true start [] [AOpen; AOpen; ALook 1] = Some (s, h) /\ calm ex_day true s h /\ sc_active s = 1%nat /\ unseen 2 h = [] /\
  option_map status (run ex_day true s [Shut; Put (Some 1%nat) 7 false (bs "x"); Look 0]) = Some [] /\
  option_map status (run ex_day true s [Mention 1 1; Look 0; Put (Some 1%nat) 7 false (bs "x")]) = Some [(1%nat, false)].
Proof.
  eexists _, _. split; [vm_compute; reflexivity|]. split; [apply (acts_calm _ _ [AOpen; AOpen; ALook 1] start []); [constructor|vm_compute; reflexivity]|]. repeat split.
Qed.
