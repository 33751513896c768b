(** What is said about the members of a group, and what is so. *)
From Verif Require Import Base XdrModel RpcModel AddrModel IniModel UiModel CrpcModel GroupModel WinModel WinProofs WinProps AnnModel.
From Coq Require Import Lia.
Local Open Scope N_scope.

(** * C84 *)

(** ** What is said *)

(** [x] is what [m] should be called. *)
Definition calls (me : bytes) (name : bytes -> option bytes) (m : bytes) (x : named) : Prop :=
  match x with
  | Self => m = me
  | Nick n => m <> me /\ name m = Some n
  | Unknown i => m <> me /\ name m = None /\ i = m
  end.

(** What was said on the console and in the active window, in order. *)
Definition left_console (l : list said) : list named := flat_map (fun x => match x with Minus w => [w] | _ => [] end) l.
Definition joined_console (l : list said) : list named := flat_map (fun x => match x with Plus w => [w] | _ => [] end) l.
Definition left_window (l : list said) : list named := flat_map (fun x => match x with HasLeft w => [w] | _ => [] end) l.
Definition joined_window (l : list said) : list named := flat_map (fun x => match x with HasJoined w => [w] | _ => [] end) l.
Definition missing (l : list said) : list bytes := flat_map (fun x => match x with Missing i => [i] | _ => [] end) l.
Definition nameable (x : named) : bool := match x with Unknown _ => false | _ => true end.

(** [l] says that exactly [out] have left and exactly [into] have joined; strangers are only
    mentioned on the console. *)
Definition says (me : bytes) (name : bytes -> option bytes) (l : list said) (out into : list bytes) : Prop :=
  Forall2 (calls me name) out (left_console l) /\ Forall2 (calls me name) into (joined_console l) /\
  left_window l = filter nameable (left_console l) /\ joined_window l = filter nameable (joined_console l).

(** Who is in a group, for this client. *)
Definition member (c : gclient) (n m : bytes) : Prop := exists g, mget (c_groups c) n = Some g /\ In m (GroupList_Members g).

Lemma calls_name me name m : calls me name m (name_it me name m).
Proof. unfold name_it. destruct (eqb_spec m me); [auto|]. destruct (name m) eqn:E; cbn; auto. Qed.

Lemma minus_in og ng m : In m (minus og ng) <-> In m og /\ ~ In m ng.
Proof. unfold minus. rewrite filter_In. pose proof (mem_In m ng) as K. destruct (mem m ng); cbn; intuition congruence. Qed.
Lemma plus_in og ng m : In m (plus og ng) <-> In m ng /\ ~ In m og.
Proof. unfold plus. rewrite filter_In. pose proof (mem_In m og) as K. destruct (mem m og); cbn; intuition congruence. Qed.

Lemma says_minus me name l :
  let x := flat_map (fun m => say_minus (name_it me name m)) l in
  Forall2 (calls me name) l (left_console x) /\ left_window x = filter nameable (left_console x) /\
  joined_console x = [] /\ joined_window x = [] /\ missing x = [].
Proof.
  induction l as [|m l (A & B & C & D & E)]; cbn; [auto|]. pose proof (calls_name me name m) as K.
  destruct (name_it me name m) eqn:N; cbn; cbn in A, B; unfold left_window in *; rewrite ?B; auto 6.
Qed.
Lemma says_plus me name l :
  let x := flat_map (fun m => say_plus (name_it me name m)) l in
  Forall2 (calls me name) l (joined_console x) /\ joined_window x = filter nameable (joined_console x) /\
  left_console x = [] /\ left_window x = [] /\ missing x = [].
Proof.
  induction l as [|m l (A & B & C & D & E)]; cbn; [auto|]. pose proof (calls_name me name m) as K.
  destruct (name_it me name m) eqn:N; cbn; cbn in A, B; unfold joined_window in *; rewrite ?B; auto 6.
Qed.

Lemma save_keeps c n w : c_groups (fst (save_group c n w)) = c_groups c.
Proof.
  unfold save_group. destruct (negb (valid_name n)); [reflexivity|]. destruct (mget (c_groups c) n); [|reflexivity].
  destruct (dir_name n); [reflexivity|]. destruct w as [|[b|]]; reflexivity.
Qed.

(** Nothing is said about leaving and joining in the rest. *)
Definition quiet (l : list said) : Prop := left_console l = [] /\ joined_console l = [] /\ left_window l = [] /\ joined_window l = [].
Lemma warn_quiet me name l : forall e, quiet (fst (warn me name e l)).
Proof.
  induction l as [|m l IH]; intros e; [repeat split|]. cbn [warn]. destruct (eqb m me); auto. destruct (name m); auto.
  specialize (IH true). destruct (warn me name true l). exact IH.
Qed.

Lemma hear_says me name w c from gl g : mget (c_groups c) (GroupList_Name gl) = Some g ->
  says me name (fst (hear_list me name w c from gl)) (minus (GroupList_Members g) (GroupList_Members gl)) (plus (GroupList_Members g) (GroupList_Members gl)).
Proof.
  intros G. unfold hear_list. pose proof (warn_quiet me name (GroupList_Members gl) false) as Q.
  destruct (warn me name false (GroupList_Members gl)) as [miss err]. destruct (update_list c from gl w) as [c' ok].
  unfold say_diff. rewrite G. cbn [fst] in *.
  set (tail := miss ++ (if err then [NoWarning] else []) ++ (if ok then [] else [NoUpdate])).
  assert (T : quiet tail).
  { destruct Q as (Q1 & Q2 & Q3 & Q4). unfold tail, quiet, left_console, joined_console, left_window, joined_window in *.
    rewrite !flat_map_app, Q1, Q2, Q3, Q4. destruct err, ok; repeat split. }
  destruct T as (T1 & T2 & T3 & T4).
  destruct (says_minus me name (minus (GroupList_Members g) (GroupList_Members gl))) as (A1 & A2 & A3 & A4 & _).
  destruct (says_plus me name (plus (GroupList_Members g) (GroupList_Members gl))) as (B1 & B2 & B3 & B4 & _).
  set (x := flat_map _ (minus _ _)) in *. set (y := flat_map _ (plus _ _)) in *.
  unfold says, left_console, joined_console, left_window, joined_window in *. cbn [app flat_map]. rewrite !flat_map_app.
  rewrite T1, T2, T3, T4, A3, A4, B3, B4. cbn [app]. rewrite !app_nil_r. auto.
Qed.

(** ** Theorems *)

(** A list from the administrator: what is said is what changes. *)
Theorem C84_true : forall me name w c from gl g l c',
  mget (c_groups c) (GroupList_Name gl) = Some g -> hd_error (GroupList_Members g) = Some from ->
  hear_list me name w c from gl = (l, c') ->
  exists out into, says me name l out into /\
    (forall m, In m out <-> member c (GroupList_Name gl) m /\ ~ member c' (GroupList_Name gl) m) /\
    (forall m, In m into <-> ~ member c (GroupList_Name gl) m /\ member c' (GroupList_Name gl) m) /\
    (NoDup (GroupList_Members g) -> NoDup out) /\ (NoDup (GroupList_Members gl) -> NoDup into).
Proof.
  intros me name w c from gl g l c' G A H.
  exists (minus (GroupList_Members g) (GroupList_Members gl)), (plus (GroupList_Members g) (GroupList_Members gl)).
  pose proof (hear_says me name w c from gl g G) as S. rewrite H in S. split; [exact S|].
  assert (U : mget (c_groups c') (GroupList_Name gl) = Some gl).
  { unfold hear_list in H. destruct (warn _ _ _ _). destruct (update_list c from gl w) as [c1 ok] eqn:U. injection H as _ <-.
    unfold update_list in U. rewrite G in U. replace (admin g) with (Some from) in U by (now rewrite <- A; unfold admin; destruct (GroupList_Members g)).
    rewrite eqb_refl in U. apply (f_equal fst) in U. cbn [fst] in U. rewrite <- U, save_keeps. cbn. apply mget_mset_eq. }
  assert (M : forall m, member c (GroupList_Name gl) m <-> In m (GroupList_Members g)).
  { intros m. unfold member. rewrite G. split; [intros (x & [= <-] & I); auto|eauto]. }
  assert (M' : forall m, member c' (GroupList_Name gl) m <-> In m (GroupList_Members gl)).
  { intros m. unfold member. rewrite U. split; [intros (x & [= <-] & I); auto|eauto]. }
  split; [|split; [|split]].
  - intros m. rewrite M, M'. apply minus_in.
  - intros m. rewrite M, M', plus_in. tauto.
  - intros N. now apply NoDup_filter.
  - intros N. now apply NoDup_filter.
Qed.
Print Assumptions C84_true.

(** A list from anybody else says the same and changes nothing: whoever knows the name of a
    group can have it said that any member, also the reader, has left, and that anybody
    has joined. *)
Theorem C84_forged_refuted : forall me name w c from n g, mget (c_groups c) n = Some g ->
  hd_error (GroupList_Members g) <> Some from ->
  (forall m, In m (GroupList_Members g) -> exists gl l x, GroupList_Name gl = n /\
     hear_list me name w c from gl = (l, c) /\ calls me name m x /\ In (Minus x) l /\ (nameable x = true -> In (HasLeft x) l)) /\
  (forall m, ~ In m (GroupList_Members g) -> exists gl l x, GroupList_Name gl = n /\
     hear_list me name w c from gl = (l, c) /\ calls me name m x /\ In (Plus x) l /\ (nameable x = true -> In (HasJoined x) l)).
Proof.
  intros me name w c from n g G A.
  assert (U : forall gl, GroupList_Name gl = n -> update_list c from gl w = (c, false)).
  { intros gl E. unfold update_list. rewrite E, G. unfold admin. destruct (GroupList_Members g) as [|a r]; [reflexivity|].
    destruct (eqb_spec a from) as [->|_]; [exfalso; now apply A|reflexivity]. }
  assert (F2 : forall out l m, Forall2 (calls me name) out l -> In m out -> exists x, calls me name m x /\ In x l).
  { intros out l m F. induction F as [|a b out l K F IH]; intros []; [subst; exists b; cbn; auto|].
    destruct IH as (x & ? & ?); auto. exists x. cbn. auto. }
  assert (I1 : forall l x, In x (left_console l) -> In (Minus x) l).
  { intros l x I. unfold left_console in I. apply in_flat_map in I as (y & I & J). destruct y; try contradiction. destruct J as [->|[]]. exact I. }
  assert (I2 : forall l x, In x (left_window l) -> In (HasLeft x) l).
  { intros l x I. unfold left_window in I. apply in_flat_map in I as (y & I & J). destruct y; try contradiction. destruct J as [->|[]]. exact I. }
  assert (I3 : forall l x, In x (joined_console l) -> In (Plus x) l).
  { intros l x I. unfold joined_console in I. apply in_flat_map in I as (y & I & J). destruct y; try contradiction. destruct J as [->|[]]. exact I. }
  assert (I4 : forall l x, In x (joined_window l) -> In (HasJoined x) l).
  { intros l x I. unfold joined_window in I. apply in_flat_map in I as (y & I & J). destruct y; try contradiction. destruct J as [->|[]]. exact I. }
  assert (Q : forall gl, GroupList_Name gl = n -> exists l, hear_list me name w c from gl = (l, c) /\
    says me name l (minus (GroupList_Members g) (GroupList_Members gl)) (plus (GroupList_Members g) (GroupList_Members gl))).
  { intros gl E. destruct (hear_list me name w c from gl) as [l c'] eqn:H. exists l. split.
    - f_equal. unfold hear_list in H. destruct (warn _ _ _ _). rewrite (U gl E) in H. now injection H.
    - pose proof (hear_says me name w c from gl g) as S. rewrite H in S. apply S. now rewrite E. }
  split; intros m I.
  - set (gl := mkGroupList n 0 0 []). destruct (Q gl eq_refl) as (l & H & S1 & _ & S3 & _).
    destruct (F2 _ _ m S1) as (x & K & J). { apply minus_in. auto. }
    exists gl, l, x. split; [reflexivity|]. split; [exact H|]. split; [exact K|]. split; [now apply I1|].
    intros Nx. apply I2. rewrite S3. apply filter_In. auto.
  - set (gl := mkGroupList n 0 0 [m]). destruct (Q gl eq_refl) as (l & H & _ & S2 & _ & S4).
    destruct (F2 _ _ m S2) as (x & K & J). { apply plus_in. cbn. auto. }
    exists gl, l, x. split; [reflexivity|]. split; [exact H|]. split; [exact K|]. split; [now apply I3|].
    intros Nx. apply I4. rewrite S4. apply filter_In. auto.
Qed.
Print Assumptions C84_forged_refuted.

(** The strangers among the members of a list are named, all of them and only they. *)
Theorem C84_missing : forall me name w c from gl l c', hear_list me name w c from gl = (l, c') ->
  missing l = filter (fun m => negb (eqb m me) && match name m with Some _ => false | None => true end) (GroupList_Members gl) /\
  (In NoWarning l <-> exists r m s, GroupList_Members gl = r ++ m :: s /\ m <> me /\ name m = None /\ Forall (fun y => y = me) s).
Proof.
  intros me name w c from gl l c' H. unfold hear_list in H.
  destruct (warn me name false (GroupList_Members gl)) as [miss err] eqn:W. destruct (update_list c from gl w) as [c1 ok]. injection H as <- _.
  set (f := fun m => negb (eqb m me) && match name m with Some _ => false | None => true end).
  assert (Q : forall ms e miss err, warn me name e ms = (miss, err) -> missing miss = filter f ms /\ ~ In NoWarning miss /\
    (err = true <-> (exists r m s, ms = r ++ m :: s /\ m <> me /\ name m = None /\ Forall (fun y => y = me) s) \/ e = true /\ Forall (fun y => y = me) ms)).
  { clear. induction ms as [|m ms IH]; intros e miss err W; cbn [warn] in W.
    - injection W as <- <-. split; [reflexivity|]. split; [intros []|]. split; [auto|]. intros [(r & m & s & E & _)|[E _]]; [destruct r; discriminate|auto].
    - cbn [filter]. destruct (eqb_spec m me) as [->|N].
      + apply IH in W as (W1 & W2 & W3). unfold f at 1. rewrite eqb_refl. cbn [negb andb]. split; auto. split; auto. rewrite W3. split.
        * intros [(r & m & s & -> & K)|[E F]]; [left; exists (me :: r), m, s; auto|right; auto].
        * intros [(r & m & s & E & K1 & K2)|[E F]]; [|inversion F; auto]. destruct r as [|x r]; cbn in E; injection E as <- E.
          -- contradiction.
          -- left. exists r, m, s. auto.
      + assert (Fm : f m = match name m with Some _ => false | None => true end).
        { unfold f. destruct (eqb_spec m me); [contradiction|reflexivity]. }
        rewrite Fm. destruct (name m) as [nk|] eqn:Nm.
        * apply IH in W as (W1 & W2 & W3). split; auto. split; auto. rewrite W3. split.
          -- intros [(r & x & s & -> & K)|[E _]]; [left; exists (m :: r), x, s; auto|discriminate].
          -- intros [(r & x & s & E & K1 & K2 & K3)|[_ F]]; [|inversion F; congruence]. destruct r as [|z r]; cbn in E; injection E as <- E.
             ++ congruence.
             ++ left. exists r, x, s. auto.
        * destruct (warn me name true ms) as [x e'] eqn:W'. injection W as <- <-. apply IH in W' as (W1 & W2 & W3).
          split; [|split].
          -- cbn. f_equal. exact W1.
          -- intros [E|I]; [discriminate|auto].
          -- rewrite W3. split.
             ++ intros [(r & z & s & -> & K)|[_ F]]; [left; exists (m :: r), z, s; auto|]. left. exists [], m, ms. auto.
             ++ intros [(r & z & s & E & K1 & K2 & K3)|[_ F]]; [|inversion F; congruence]. destruct r as [|u r]; cbn in E; injection E as <- E.
                ** right. subst s. auto.
                ** left. exists r, z, s. auto. }
  destruct (Q _ _ _ _ W) as (Q1 & Q2 & Q3).
  assert (D : missing (say_diff me name c gl) = [] /\ ~ In NoWarning (say_diff me name c gl)).
  { unfold say_diff. destruct (mget (c_groups c) (GroupList_Name gl)) as [g|]; [|split; [reflexivity|intros []]].
    destruct (says_minus me name (minus (GroupList_Members g) (GroupList_Members gl))) as (_ & _ & _ & _ & A).
    destruct (says_plus me name (plus (GroupList_Members g) (GroupList_Members gl))) as (_ & _ & _ & _ & B).
    split.
    - unfold missing in *. cbn [flat_map app]. rewrite flat_map_app, A, B. reflexivity.
    - cbn [In]. rewrite in_app_iff, !in_flat_map. intros [I|[(x & _ & I)|(x & _ & I)]]; [discriminate| |];
      destruct (name_it me name x); cbn in I; intuition discriminate. }
  destruct D as [D1 D2]. split.
  - unfold missing in *. cbn [flat_map app]. rewrite !flat_map_app, D1, Q1. cbn [app]. destruct err, ok; cbn; now rewrite app_nil_r.
  - cbn [In]. rewrite !in_app_iff. split.
    + intros [I|[I|[I|[I|I]]]]; [discriminate|contradiction|contradiction| |destruct ok; [contradiction|destruct I as [I|[]]; discriminate]].
      destruct err; [|contradiction]. apply proj1 in Q3. destruct Q3 as [K|[K _]]; auto; discriminate.
    + intros K. right. right. right. left. rewrite (proj2 Q3) by auto. now left.
Qed.
Print Assumptions C84_missing.

(** A kick names whom the administrator says, whatever the new list does. *)
Theorem C84_kick_refuted : forall me name open rm c n g a x y,
  mget (c_groups c) n = Some g -> hd_error (GroupList_Members g) = Some a ->
  In x (GroupList_Members g) -> In y (GroupList_Members g) -> x <> y -> x <> me ->
  exists gk l c', GroupList_Name (GroupKick_NewGroupList gk) = n /\
    hear_kick me name open Written rm c a gk = (l, c') /\
    (forall z, In z l -> exists p v why, (z = Gone p v why \/ z = GoneHere p v why) /\ calls me name x v) /\ l <> [] /\
    member c' n x /\ ~ member c' n y.
Proof.
  intros me name open rm c n g a x y G A X Y D Dm.
  set (gk := mkGroupKick x [] false (mkGroupList n 0 0 [x])).
  destruct (hear_kick me name open Written rm c a gk) as [l c'] eqn:H. exists gk, l, c'. split; [reflexivity|]. split; [exact H|].
  unfold hear_kick in H. destruct (handle_kick me Written rm c a gk) as [o c1] eqn:K.
  cbn [GroupKick_NewGroupList GroupList_Name gk] in H. rewrite G in H.
  assert (Ad : admin g = Some a) by (unfold admin; destruct (GroupList_Members g); exact A).
  rewrite Ad, eqb_refl in H. cbn [negb] in H. injection H as <- <-.
  split; [|split; [discriminate|]].
  - intros z [<-|Z]; [do 3 eexists; split; [left; reflexivity|apply calls_name]|].
    destruct open; [|contradiction]. destruct Z as [<-|[]]. do 3 eexists. split; [right; reflexivity|apply calls_name].
  - unfold handle_kick in K. cbn [GroupKick_NewGroupList GroupKick_Member GroupList_Name gk] in K. rewrite G, Ad, eqb_refl in K. cbn [negb] in K.
    destruct (eqb_spec x me); [contradiction|].
    assert (U : mget (c_groups c1) n = Some (mkGroupList n 0 0 [x])).
    { destruct (update_list c a _ Written) as [c2 ok] eqn:U in K. injection K as _ <-.
      unfold update_list in U. cbn [GroupList_Name] in U. rewrite G, Ad, eqb_refl in U. apply (f_equal fst) in U. cbn [fst] in U.
      rewrite <- U, save_keeps. cbn. apply mget_mset_eq. }
    unfold member. rewrite U. split; [eexists; split; [reflexivity|now left]|].
    intros (h & [= <-] & [E|[]]). congruence.
Qed.
Print Assumptions C84_kick_refuted.

(** The kicks that a client itself makes are honest: to a member with the same list they
    name exactly whoever is no longer in it. *)
Theorem C84_honest : forall adm now known w ca who gp n c g me name open rm l c' m gk k,
  mget (c_groups ca) n = Some g -> mget (c_groups c) n = Some g -> NoDup (GroupList_Members g) -> GroupList_Name g = n ->
  hd_error (GroupList_Members g) = Some adm ->
  In (m, GKick gk) (o_sent (fst (handle_part adm now known w ca who gp))) /\ GroupPart_Name gp = n \/
  In (m, GKick gk) (o_sent (fst (gc_kick adm now ca n who))) ->
  me <> who -> hear_kick me name open k rm c adm gk = (l, c') ->
  (exists v why, In (Gone (GroupKick_Parted gk) v why) l /\ calls me name who v) /\
  (forall z, member c' n z <-> member c n z /\ z <> who).
Proof.
  intros adm now known w ca who gp n c g me name open rm l c' m gk k Ga G ND Nn A I Dm H.
  assert (Ad : admin g = Some adm) by (unfold admin; destruct (GroupList_Members g); exact A).
  assert (K : GroupKick_Member gk = who /\ GroupList_Name (GroupKick_NewGroupList gk) = n /\
    forall z, In z (GroupList_Members (GroupKick_NewGroupList gk)) <-> In z (GroupList_Members g) /\ z <> who).
  { destruct (GroupList_Members g) as [|a others] eqn:Mg; [discriminate|]. injection A as ->. destruct I as [[I E]|I].
    - unfold handle_part in I. rewrite E, Ga, Mg, eqb_refl in I. cbn [negb] in I. destruct (mem who others) eqn:M; cbn [negb] in I; [|contradiction].
      destruct (save_group _ _ _) in I. cbn [fst done o_sent] in I. apply in_map_iff in I as (zz & [= _ <-] & _).
      cbn. split; [auto|]. split; [auto|]. intros z. inversion ND as [|? ? N1 N2]; subst.
      assert (X : forall l, NoDup l -> (In z (without who l) <-> In z l /\ z <> who)).
      { clear. induction l as [|y l IH]; intros ND; cbn; [tauto|]. inversion ND; subst. destruct (eqb_spec y who) as [->|N].
        - split; [intros I; split; [auto|congruence]|intros [[->|I] D]; [congruence|auto]].
        - cbn. rewrite IH by auto. split; [intros [->|[I D]]; auto|intros [[->|I] D]; auto]. }
      rewrite X by auto. apply mem_In in M. split; [intros [<-|[I J]]; split; auto; congruence|intros [[->|I] D]; auto].
    - unfold gc_kick in I. rewrite Ga, Mg, eqb_refl in I. cbn [negb] in I. destruct (eqb adm who); [contradiction|].
      cbn [fst o_sent] in I. apply in_map_iff in I as (zz & [= _ <-] & _). cbn [GroupKick_Member GroupKick_NewGroupList GroupList_Name GroupList_Members].
      split; [auto|]. split; [auto|]. intros z. change (In z (filter (fun m => negb (eqb m who)) (adm :: others)) <-> In z (adm :: others) /\ z <> who).
      rewrite filter_In. destruct (eqb_spec z who); cbn; intuition congruence. }
  destruct K as (K1 & K2 & K3). unfold hear_kick in H. destruct (handle_kick me k rm c adm gk) as [o c1] eqn:Hk.
  rewrite K2, G, Ad, eqb_refl in H. cbn [negb] in H. injection H as <- <-. split.
  - do 2 eexists. split; [now left|]. rewrite <- K1. apply calls_name.
  - intros z. unfold handle_kick in Hk. rewrite K2, G, Ad, eqb_refl in Hk. cbn [negb] in Hk. rewrite K1 in Hk.
    destruct (eqb_spec who me); [congruence|]. destruct (update_list c adm (GroupKick_NewGroupList gk) k) as [c2 ok] eqn:U. injection Hk as _ <-.
    unfold update_list in U. rewrite K2, G, Ad, eqb_refl in U. apply (f_equal fst) in U. cbn [fst] in U.
    unfold member. rewrite <- U, save_keeps. cbn [set_groups c_groups]. rewrite mget_mset_eq, G. split.
    + intros (h & [= <-] & J). apply K3 in J as [J1 J2]. split; eauto.
    + intros [(h & [= <-] & J) D]. eexists. split; [reflexivity|]. apply K3. auto.
Qed.
Print Assumptions C84_honest.

(** What the administrator's group window says about somebody who leaves has no name. *)
Theorem C84_nameless_refuted : forall me now name w c from gp l c' p x why,
  hear_part me now name true w c from gp = (l, c') -> In (GoneHere p x why) l -> x = Nick [].
Proof.
  intros me now name w c from gp l c' p x why H I. unfold hear_part in H. destruct (handle_part _ _ _ _ _ _ _) as [o c1].
  destruct (o_result o), (name from); injection H as <- _; cbn in I; intuition; congruence.
Qed.
Print Assumptions C84_nameless_refuted.

(** ** The windows *)

Definition prints (j : job) : Prop := match j with Print _ _ => True | _ => False end.

Lemma exec_app me a : forall s b s', exec me s a = Go s' -> exec me s (a ++ b) = exec me s' b.
Proof.
  induction a as [|e a IH]; intros s b s' H; cbn in *; [now injection H as ->|]. destruct (step me s e); try discriminate. now apply IH.
Qed.

Lemma run_prints me js : forall s q, Forall prints js -> (s_active s < length (s_wins s))%nat -> s_queue s = js ++ q ->
  exists s', exec me s (repeat Run (length js)) = Go s' /\ s_queue s' = q /\ s_wins s' = s_wins s /\ s_world s' = s_world s /\ s_active s' = s_active s.
Proof.
  induction js as [|j js IH]; intros s q F A E.
  - exists s. auto.
  - inversion F as [|? ? P F']; subst. cbn [length repeat exec step]. rewrite E. cbn [app]. destruct j as [at_ l| |]; try contradiction.
    cbn [run_job]. unfold run_print. cbn [s_active set_queue s_wins]. apply Nat.ltb_lt in A as A'. rewrite A'.
    edestruct IH as (s' & X & Y1 & Y2 & Y3 & Y4); [exact F'| | |exists s'; split; [exact X|]]; cbn; auto.
Qed.

Lemma settle me js js' k s : Forall prints js -> Forall prints js' -> (s_active s < length (s_wins s))%nat -> (k < length (s_wins s))%nat ->
  s_queue s = js ++ Focus k :: js' ->
  exists n s', exec me s (repeat Run n) = Go s' /\ s_queue s' = [] /\ s_wins s' = s_wins s /\ s_world s' = s_world s /\ s_active s' = k.
Proof.
  intros F F' A K E. destruct (run_prints me js s _ F A E) as (s1 & X & Q1 & W1 & O1 & A1).
  assert (Y : exists s2, exec me s1 [Run] = Go s2 /\ s_queue s2 = js' ++ [] /\ s_wins s2 = s_wins s1 /\ s_world s2 = s_world s1 /\ s_active s2 = k).
  { cbn [exec step]. rewrite Q1. cbn [run_job]. unfold run_focus. cbn [s_active set_queue s_wins].
    destruct (negb (Nat.eqb k 0) && Nat.eqb k (s_active s1)) eqn:B.
    - apply andb_prop in B as [_ B]. apply Nat.eqb_eq in B. eexists. split; [reflexivity|]. cbn. rewrite app_nil_r. auto.
    - replace (Nat.ltb k (length (s_wins s1))) with true by (symmetry; apply Nat.ltb_lt; congruence).
      eexists. split; [reflexivity|]. cbn. rewrite app_nil_r. auto. }
  destruct Y as (s2 & Y & Q2 & W2 & O2 & A2).
  destruct (run_prints me js' s2 [] F') as (s3 & Z & Q3 & W3 & O3 & A3); [rewrite A2, W2, W1; auto|auto|].
  exists (length js + (1 + length js'))%nat, s3. rewrite !repeat_app. split; [|split; [auto|split; [congruence|split; [congruence|congruence]]]].
  rewrite (exec_app me _ _ _ _ X). rewrite (exec_app me (repeat Run 1) _ _ _ Y). exact Z.
Qed.

(** The group's window, found or new. *)
Lemma query_front me D G o ws g ms : apart D G -> good D G o -> winv me D G ws ->
  mget (o_groups o) g = Some ms -> nick me <> g -> g <> bs "console" ->
  exists k ext js, Forall prints js /\ nth_error (ws ++ ext) k = Some (group_win g) /\
  forall s, s_wins s = ws -> s_world s = o ->
    query me s g = enqueue (set_wins s (ws ++ ext)) (js ++ [Focus k]) /\
    (s_main s = None -> exists e s1, exec me s e = Go s1 /\ Forall (ev_good D G) e /\
       s_wins s1 = ws ++ ext /\ s_world s1 = o /\ s_active s1 = s_active s /\ s_queue s1 = s_queue s ++ js ++ [Focus k]).
Proof.
  intros A [_ Gg] W M Nm Nc. pose proof (Gg _ _ M) as HG. unfold query. cbn [exec step].
  destruct (first (fun v => eqb (w_nick v) g) ws) as [k|] eqn:F.
  - destruct (first_some _ _ _ F) as (v & Nv & E). apply (proj1 (eqb_eq _ _)) in E.
    assert (V : v = group_win g).
    { destruct (v_kind _ _ _ _ W _ _ Nv) as [->|[(g' & _ & ->)|(p & Hp & _ & ->)]].
      - exfalso. apply Nc. symmetry. exact E.
      - cbn in E. now subst.
      - exfalso. apply (a_groups _ _ A p Hp). cbn [w_nick contact_win] in E. now rewrite E. }
    subst v. exists k, [], []. rewrite app_nil_r. split; [constructor|]. split; [exact Nv|].
    intros s Ew Eo. rewrite Ew, F. split; [subst ws; destruct s; reflexivity|].
    intros Hm. exists [Query g]. cbn [exec step]. rewrite Hm, Ew, F. eexists. split; [reflexivity|]. split; [repeat constructor|]. cbn. auto.
  - assert (F' : first (fun v => eqb (nick (w_pub v)) g) ws = None).
    { destruct (first (fun v => eqb (nick (w_pub v)) g) ws) as [k|] eqn:F'; [|reflexivity]. exfalso.
      destruct (first_some _ _ _ F') as (v & Nv & E). apply (proj1 (eqb_eq _ _)) in E.
      destruct (v_kind _ _ _ _ W _ _ Nv) as [->|[(g' & _ & ->)|(p & Hp & _ & ->)]]; cbn [w_pub console group_win contact_win] in E.
      - congruence.
      - change (g' = g) in E. subst g'. apply nth_error_In in Nv. pose proof (first_none _ _ F _ Nv) as X. cbn in X. rewrite eqb_refl in X. discriminate.
      - apply (a_groups _ _ A p Hp). unfold shown_nick. rewrite E. destruct g; [|exact HG]. destruct (proj1 (a_gblank _ _ A _ HG) eq_refl). }
    exists (length ws), [group_win g], [Print (Some O) Note; Print (Some (length ws)) Note].
    split; [repeat constructor|]. split; [rewrite nth_error_app2, Nat.sub_diag by lia; reflexivity|].
    intros s Ew Eo. rewrite Ew, F. unfold group_conversation. rewrite Eo, M. unfold place. rewrite F'.
    split; [cbn; unfold enqueue, set_wins, set_queue; cbn; now rewrite <- app_assoc|].
    intros Hm. exists [Query g; Main]. cbn [exec step]. rewrite Hm, Ew, F. unfold group_conversation. rewrite Eo, M. unfold place. rewrite F'.
    eexists. split; [reflexivity|]. split; [repeat constructor|]. cbn. rewrite <- !app_assoc. auto.
Qed.

Lemma draw_rest me g l : forall s, Forall (fun x => match x with Opened | GoneHere _ _ _ => False | _ => True end) l ->
  exists js, Forall prints js /\ draws me g s l = enqueue s js.
Proof.
  induction l as [|x l IH]; intros s F.
  - exists []. split; [constructor|]. destruct s. unfold enqueue, set_queue. cbn. now rewrite app_nil_r.
  - inversion F as [|? ? X F']; subst. cbn [draws fold_left]. fold (draws me g (draw me g s x) l).
    assert (Y : exists j, prints j /\ draw me g s x = enqueue s [j]) by (destruct x; try contradiction; eexists; (split; [|reflexivity]); exact I).
    destruct Y as (j & P & ->). destruct (IH (enqueue s [j]) F') as (js & P' & ->). exists (j :: js). split; [now constructor|].
    unfold enqueue, set_queue. cbn. now rewrite <- app_assoc.
Qed.

(** A list from anybody brings the group's window to the front.  Whoever is writing to a
    contact then writes to the group. *)
Theorem C84_front_refuted : forall me D G o es s i p gg gl from name w c t z sp,
  apart D G -> good D G o -> Forall (ev_good D G) es -> exec me (start me o) es = Go s ->
  s_main s = None -> s_queue s = [] -> s_active s = i -> i <> O ->
  nth_error (s_wins s) i = Some (contact_win p (ident p)) -> D p ->
  let g := GroupList_Name gl in
  mget (c_groups c) g = Some gg -> mget (o_groups (s_world s)) g = Some (GroupList_Members gg) ->
  nick me <> g -> g <> bs "console" ->
  has_prefix (bs "/") (t ++ [z]) = false -> is_space z = false -> forallb is_space sp = true ->
  action me (s_world s) (s_wins s) i ((t ++ [z]) ++ sp) = (s_wins s, false, Private (ident p) (t ++ [z]) (Some i)) /\
  exists n s' to,
    exec me (draws me g s (fst (hear_list (ident me) name w c from gl))) (repeat Run n) = Go s' /\ s_queue s' = [] /\
    action me (s_world s') (s_wins s') (s_active s') ((t ++ [z]) ++ sp) = (s_wins s', false, ToGroup g (t ++ [z]) to (s_active s')) /\
    forall m, In m to <-> In m (GroupList_Members gg) /\ m <> ident me.
Proof.
  intros me D G o es s i p gg gl from name w c t z sp A Ho He H Hm Hq Ha Hi Hw Hp g Gc Go_ Nm Nc Hx Hz Hs.
  split; [now apply (C69_text me D G o es s i p t z sp)|].
  destruct (exec_winv me D G es (start me o) s Ho He (start_winv me D G) H) as (W & Gd).
  unfold hear_list. pose proof (warn_quiet (ident me) name (GroupList_Members gl) false) as _.
  assert (Wn : forall l e, Forall (fun x => match x with Opened | GoneHere _ _ _ => False | _ => True end) (fst (warn (ident me) name e l))).
  { clear. induction l as [|m l IH]; intros e; [constructor|]. cbn [warn]. destruct (eqb m (ident me)); auto. destruct (name m); auto.
    specialize (IH true). destruct (warn _ _ true l). now constructor. }
  specialize (Wn (GroupList_Members gl) false). destruct (warn (ident me) name false (GroupList_Members gl)) as [miss err].
  destruct (update_list c from gl w) as [c' ok]. unfold say_diff. fold g. rewrite Gc. cbn [fst app] in *.
  set (rest := flat_map _ _ ++ flat_map _ _).
  set (s0 := enqueue s [Print (Some O) Note]).
  assert (R : Forall (fun x => match x with Opened | GoneHere _ _ _ => False | _ => True end)
    (rest ++ miss ++ (if err then [NoWarning] else []) ++ (if ok then [] else [NoUpdate]))).
  { apply Forall_app. split; [|apply Forall_app; split; [exact Wn|destruct err, ok; repeat constructor]].
    unfold rest. apply Forall_app. split; apply Forall_flat_map, Forall_forall; intros m _; destruct (name_it (ident me) name m); repeat constructor. }
  destruct (query_front me D G (s_world s) (s_wins s) g (GroupList_Members gg) A Gd W Go_ Nm Nc) as (k & ext & js & Pj & Nk & Q).
  destruct (Q s0 eq_refl eq_refl) as [Q0 _]. destruct (Q s eq_refl eq_refl) as [_ E]. destruct (E Hm) as (e & s1 & X1 & Ge & W1 & O1 & A1 & Q1).
  assert (Li : (i < length (s_wins s ++ ext))%nat).
  { rewrite app_length. assert (i < length (s_wins s))%nat by (apply nth_error_Some; congruence). lia. }
  assert (Lk : (k < length (s_wins s ++ ext))%nat) by (apply nth_error_Some; congruence).
  (* the same windows after the command /q *)
  destruct (settle me js [] k s1 Pj (Forall_nil _)) as (n1 & s2 & Y1 & _ & W2 & O2 & A2); [rewrite W1, A1, Ha; exact Li|rewrite W1; exact Lk|rewrite Q1, Hq; reflexivity|].
  assert (Z2 : exec me (start me o) (es ++ e ++ repeat Run n1) = Go s2).
  { rewrite (exec_app me _ _ _ _ H), (exec_app me _ _ _ _ X1). exact Y1. }
  assert (G2 : Forall (ev_good D G) (es ++ e ++ repeat Run n1)).
  { apply Forall_app. split; [exact He|]. apply Forall_app. split; [exact Ge|]. clear. induction n1; cbn; constructor; auto. exact I. }
  assert (K0 : k <> O).
  { intros ->. pose proof (v_first _ _ _ _ W) as V. destruct (s_wins s); [discriminate|]. cbn in V, Nk. rewrite V in Nk. discriminate Nk. }
  destruct (C69_group me D G o _ s2 k g (GroupList_Members gg) t z sp A Ho G2 Z2) as (to & Act & To); auto; [congruence|congruence|].
  (* and after the list *)
  destruct (draw_rest me g _ (query me s0 g) R) as (js' & Pj' & Dr).
  destruct (settle me (Print (Some O) Note :: js) js' k (enqueue (query me s0 g) js')) as (n & s' & Y & Qs & Ws & Os & As).
  { constructor; [exact I|exact Pj]. }
  { exact Pj'. }
  { rewrite Q0. cbn. rewrite Ha. exact Li. }
  { rewrite Q0. cbn. exact Lk. }
  { rewrite Q0. cbn. rewrite Hq. cbn. rewrite <- app_assoc. reflexivity. }
  exists n, s', to. split; [|split; [exact Qs|split; [|exact To]]].
  - cbn [draws fold_left draw]. fold s0. unfold draws in Dr. rewrite Dr. exact Y.
  - rewrite As, Ws, Os, Q0. cbn [enqueue set_queue s_world s_wins set_wins s0].
    rewrite O2, W2, O1, W1 in Act. exact Act.
Qed.
Print Assumptions C84_front_refuted.

(** ** Cases *)

(** The group of C69's case, with carol in it as well, for somebody who knows bob and carol; dave is a
    stranger here. *)
Definition dev : GroupList := mkGroupList (bs "dev") 3 0 [ident bob; ident me0; ident carol].
Definition here : gclient := mkGclient [(bs "dev", dev)] [] None None [].
Definition phone (i : bytes) : option bytes :=
  if eqb i (ident bob) then Some (bs "bob") else if eqb i (ident carol) then Some (bs "carol") else None.

(** Bob, who made the group, sends a list with dave for carol: that is said and is so. *)
Example C84_true_case :
  let (l, c') := hear_list (ident me0) phone Written here (ident bob) (mkGroupList (bs "dev") 4 0 [ident bob; ident me0; ident dave]) in
  l = [Received; Opened; Minus (Nick (bs "carol")); HasLeft (Nick (bs "carol")); Plus (Unknown (ident dave)); Missing (ident dave); NoWarning] /\
  option_map GroupList_Members (mget (c_groups c') (bs "dev")) = Some [ident bob; ident me0; ident dave].
Proof. vm_compute. auto. Qed.

(** Dave, who is not in the group, sends an empty one. *)
Example C84_forged_case :
  hear_list (ident me0) phone Written here (ident dave) (mkGroupList (bs "dev") 4 0 []) =
  ([Received; Opened; Minus (Nick (bs "bob")); HasLeft (Nick (bs "bob")); Minus Self; HasLeft Self;
    Minus (Nick (bs "carol")); HasLeft (Nick (bs "carol")); NoUpdate], here).
Proof. reflexivity. Qed.

(** Bob says that dave was kicked; carol is gone. *)
Example C84_kick_case :
  let (l, c') := hear_kick (ident me0) phone true Written true here (ident bob)
    (mkGroupKick (ident dave) (bs "x") false (mkGroupList (bs "dev") 4 0 [ident bob; ident me0])) in
  l = [Gone false (Unknown (ident dave)) (bs "x"); GoneHere false (Unknown (ident dave)) (bs "x")] /\
  option_map GroupList_Members (mget (c_groups c') (bs "dev")) = Some [ident bob; ident me0].
Proof. vm_compute. auto. Qed.

(** Carol leaves, seen by bob and then by me. *)
Example C84_honest_case :
  let p := handle_part (ident bob) 9 (fun _ => true) Written here (ident carol) (mkGroupPart (bs "dev") (bs "bye")) in
  let gk := mkGroupKick (ident carol) (bs "bye") true (mkGroupList (bs "dev") 4 9 [ident bob; ident me0]) in
  In (ident me0, GKick gk) (o_sent (fst p)) /\
  fst (hear_kick (ident me0) phone false Written true here (ident bob) gk) = [Gone true (Nick (bs "carol")) (bs "bye")] /\
  NoDup (GroupList_Members dev) /\
  fst (hear_part (ident bob) 9 phone true Written here (ident carol) (mkGroupPart (bs "dev") (bs "bye"))) =
    [Gone true (Nick (bs "carol")) (bs "bye"); GoneHere true (Nick []) (bs "bye")].
Proof.
  split; [vm_compute; auto|]. split; [reflexivity|]. split; [|reflexivity].
  repeat constructor; cbn; intuition discriminate.
Qed.

(** One has just opened bob's window, dave's list arrives, and the text goes to the group. *)
Definition es2 : list ev := [Query (bs "bob"); Main; Run; Run; Run].
Example C84_front_case : exists s s', exec me0 (start me0 o1) es2 = Go s /\ s_main s = None /\ s_queue s = [] /\ s_active s = 1%nat /\
  nth_error (s_wins s) 1 = Some (contact_win bob (ident bob)) /\
  let c := mkGclient [(bs "dev", mkGroupList (bs "dev") 1 0 [ident bob; ident me0])] [] None None [] in
  exec me0 (draws me0 (bs "dev") s (fst (hear_list (ident me0) phone Written c (ident dave) (mkGroupList (bs "dev") 1 0 [ident bob; ident me0])))) (repeat Run 5) = Go s' /\
  s_active s' = 2%nat /\
  action me0 (s_world s) (s_wins s) (s_active s) (bs "our secret") = (s_wins s, false, Private (ident bob) (bs "our secret") (Some 1%nat)) /\
  action me0 (s_world s') (s_wins s') (s_active s') (bs "our secret") = (s_wins s', false, ToGroup (bs "dev") (bs "our secret") [ident bob] 2%nat).
Proof.
  eexists. eexists. split; [vm_compute; reflexivity|]. split; [reflexivity|]. split; [reflexivity|]. split; [reflexivity|]. split; [reflexivity|].
  split; [vm_compute; reflexivity|]. split; [reflexivity|]. split; reflexivity.
Qed.
