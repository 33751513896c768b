(** What the client makes of its configuration file. *)
From Verif Require Import Base IniModel IniMemProofs IniFileProofs WelcomeModel UiModel ConfModel ConfProofs.
From Coq Require Import Lia.
Local Open Scope N_scope.

(** * C80 *)

(** ** What the values mean *)

Definition says_text (v : option bytes) (old x : bytes) : Prop := x = match v with Some y => y | None => old end.
Definition says_bool (v : option bytes) (old b : bool) : Prop :=
  match v with
  | None => b = old
  | Some x => map lower x = bs "yes" /\ b = true \/ map lower x = bs "no" /\ b = false
  end.

(** The words of colours and attributes. *)
Definition names : list (bytes * colour) :=
  [(bs "na", NA); (bs "black", Black); (bs "red", Red); (bs "green", Green); (bs "yellow", Yellow); (bs "blue", Blue);
   (bs "magenta", Magenta); (bs "cyan", Cyan); (bs "white", White)].
Definition words : list bytes := [bs "bold"; bs "underline"; bs "reverse"].

Section Meaning.
Variables (home : bytes) (join : bytes -> bytes -> bytes) (tolower : bytes -> bytes) (ansi : attrs -> colour -> colour -> option bytes).

(** A path with ~ for the home directory; ~name is not allowed. *)
Definition says_path (v : option bytes) (old p : bytes) : Prop :=
  exists x, x = match v with Some y => y | None => old end /\
    ((forall r, x <> 126 :: r) /\ p = x \/ x = [126] /\ p = join home [] \/
     exists c r, x = 126 :: c :: r /\ (c = 47 \/ c = 92) /\ p = join home (c :: r)).

(** attribute,attribute,...:foreground:background *)
Definition colour_text (x out : bytes) : Prop :=
  exists ws f b cf cb, x = glue 44 ws ++ 58 :: f ++ 58 :: b /\ ws <> [] /\
    (forall w, In w ws -> In (map lower w) words) /\ In (map lower f, cf) names /\ In (map lower b, cb) names /\
    ansi (mkAttrs (mem (bs "bold") (map (map lower) ws)) (mem (bs "underline") (map (map lower) ws))
                  (mem (bs "reverse") (map (map lower) ws))) cf cb = Some out.
Definition says_colour (v : option bytes) (old x : bytes) : Prop :=
  match v with None => x = old | Some y => colour_text y x end.

Definition configured (val : bytes -> bytes -> option bytes) (s : settings) : Prop :=
  says_path (val [] (bs "root")) (bs "~/.zkclient") (s_root s) /\
  says_bool (val [] (bs "tlsverbose")) true (s_tls s) /\
  says_bool (val [] (bs "beep")) false (s_beep s) /\
  says_bool (val [] (bs "separator")) false (s_separator s) /\
  says_bool (val (bs "log") (bs "savehistory")) false (s_history s) /\
  says_path (val (bs "log") (bs "logfile")) (bs "~/.zkclient/zkclient.log") (s_logfile s) /\
  says_text (val (bs "log") (bs "timeformat")) (bs "15:04:05") (s_time s) /\
  says_text (val (bs "log") (bs "longtimeformat")) (bs "2006-01-02 15:04:05") (s_longtime s) /\
  says_bool (val (bs "log") (bs "debug")) false (s_debug s) /\
  says_text (val (bs "log") (bs "profiler")) (bs "localhost:6061") (s_profiler s) /\
  says_colour (val (bs "ui") (bs "nickcolor")) (bold ansi White) (s_nick s) /\
  says_colour (val (bs "ui") (bs "gcothercolor")) (bold ansi Green) (s_gc s) /\
  says_colour (val (bs "ui") (bs "pmothercolor")) (bold ansi Cyan) (s_pm s).

(** *** Proof *)

Definition ascii (s : bytes) : Prop := Forall (fun c => c < 128) s.
Hypothesis low : forall s, ascii s -> tolower s = map lower s.

Lemma lower_ascii c : c < 128 -> lower c < 128.
Proof. unfold lower. destruct (_ && _) eqn:E; [|auto]. apply andb_true_iff in E as [A B]. apply N.leb_le in A, B. lia. Qed.
Lemma lower_idem c : lower (lower c) = lower c.
Proof.
  unfold lower. destruct ((65 <=? c) && (c <=? 90)) eqn:E; [|now rewrite E].
  apply andb_true_iff in E as [A B]. apply N.leb_le in A, B. replace ((65 <=? c + 32) && (c + 32 <=? 90)) with false; [reflexivity|].
  symmetry. apply andb_false_iff. right. apply N.leb_gt. lia.
Qed.
Lemma map_lower_ascii s : ascii s -> ascii (map lower s).
Proof. unfold ascii. rewrite Forall_map. intros H. eapply Forall_impl; [|exact H]. intros a. apply lower_ascii. Qed.
Lemma map_lower_idem s : map lower (map lower s) = map lower s.
Proof. rewrite map_map. apply map_ext. apply lower_idem. Qed.

Lemma expand_says p q : expand home join p = Some q <->
  (forall r, p <> 126 :: r) /\ q = p \/ p = [126] /\ q = join home [] \/
  exists c r, p = 126 :: c :: r /\ (c = 47 \/ c = 92) /\ q = join home (c :: r).
Proof.
  destruct p as [|x r].
  - cbn. split; [intros [= <-]; left; split; [discriminate|reflexivity]|]. intros [[_ ->]|[[E _]|(c & r & E & _)]]; [reflexivity|discriminate|discriminate].
  - destruct (N.eqb_spec x 126) as [->|Nx].
    + cbn [expand]. destruct r as [|c r].
      * split; [intros [= <-]; right; left; auto|]. intros [[A _]|[[_ ->]|(c & r & E & _)]]; [destruct (A [] eq_refl)|reflexivity|discriminate].
      * destruct ((c =? 47) || (c =? 92)) eqn:E.
        -- split.
           ++ intros [= <-]. right. right. exists c, r. split; [reflexivity|]. split; [|reflexivity].
              apply orb_true_iff in E as [E|E]; apply N.eqb_eq in E; auto.
           ++ intros [[A _]|[[E' _]|(c' & r' & E' & _ & ->)]]; [destruct (A _ eq_refl)|discriminate|]. injection E' as -> ->. reflexivity.
        -- split; [discriminate|]. apply orb_false_iff in E as [E1 E2]. apply N.eqb_neq in E1, E2.
           intros [[A _]|[[E' _]|(c' & r' & E' & [O|O] & _)]]; [destruct (A _ eq_refl)|discriminate|congruence|congruence].
    + assert (Ex : expand home join (x :: r) = Some (x :: r)).
      { destruct x as [|x]; [reflexivity|]. repeat (destruct x as [x|x|]; try reflexivity). congruence. }
      rewrite Ex. split; [intros [= <-]; left; split; [congruence|reflexivity]|].
      intros [[_ ->]|[[E _]|(c & r' & E & _)]]; [reflexivity|congruence|congruence].
Qed.

Lemma bool_says t sec key old b : ini_bool t sec key old = Some b <-> says_bool (conf_get t sec key) old b.
Proof.
  unfold ini_bool, says_bool. destruct (conf_get t sec key) as [v|]; [|split; congruence].
  destruct (eqb_spec (map lower v) (bs "yes")) as [E|N].
  - split; [intros [= <-]; auto|]. intros [[_ ->]|[E' _]]; [reflexivity|]. rewrite E in E'. discriminate.
  - destruct (eqb_spec (map lower v) (bs "no")) as [E|N'].
    + split; [intros [= <-]; auto|]. intros [[E' _]|[_ ->]]; [congruence|reflexivity].
    + split; [discriminate|]. intros [[E _]|[E _]]; congruence.
Qed.

Lemma color_says s c : ascii s -> text_to_color tolower s = Some c <-> In (map lower s, c) names.
Proof.
  intros A. unfold text_to_color. rewrite low by auto. unfold names. cbn [In].
  repeat match goal with |- context[if eqb ?a ?b then _ else _] => destruct (eqb_spec a b) as [E|?] end;
    (split; [intros H; try discriminate H; injection H as <-; rewrite E; tauto|]);
    intros H; repeat destruct H as [H|H]; try contradiction; pose proof (f_equal fst H) as H1; pose proof (f_equal snd H) as H2; cbn [fst snd] in H1, H2;
    try congruence; rewrite <- H1 in E; try discriminate E.
Qed.

Lemma attributes_says l : forall a, Forall ascii l -> attributes tolower l a =
  if forallb (fun w => mem (map lower w) words) l
  then Some (mkAttrs (a_bold a || mem (bs "bold") (map (map lower) l)) (a_underline a || mem (bs "underline") (map (map lower) l))
                     (a_reverse a || mem (bs "reverse") (map (map lower) l)))
  else None.
Proof.
  induction l as [|k l IH]; intros a F; cbn [attributes forallb map mem existsb].
  - rewrite !orb_false_r. now destruct a.
  - inversion F; subst. rewrite low by auto. unfold words. cbn [mem existsb].
    destruct (eqb_spec (map lower k) (bs "bold")) as [->|N1].
    { rewrite IH by auto. cbn. destruct (forallb _ l); [|reflexivity]. now rewrite !orb_true_r. }
    destruct (eqb_spec (map lower k) (bs "underline")) as [->|N2].
    { rewrite IH by auto. cbn. destruct (forallb _ l); [|reflexivity]. now rewrite !orb_true_r. }
    destruct (eqb_spec (map lower k) (bs "reverse")) as [->|N3].
    { rewrite IH by auto. cbn. destruct (forallb _ l); [|reflexivity]. now rewrite !orb_true_r. }
    reflexivity.
Qed.

Lemma lower_sep c x : c = 44 \/ c = 58 -> lower x = c <-> x = c.
Proof.
  intros C. unfold lower. destruct ((65 <=? x) && (x <=? 90)) eqn:E; [|tauto].
  apply andb_true_iff in E as [A B]. apply N.leb_le in A, B. lia.
Qed.
Lemma split_lower a : split 44 (map lower a) = map (map lower) (split 44 a).
Proof.
  induction a as [|x a IH]; [reflexivity|]. cbn [map split].
  destruct (N.eqb_spec x 44) as [->|Nx].
  - change (lower 44 =? 44) with true. cbn [map]. now rewrite IH.
  - destruct (N.eqb_spec (lower x) 44) as [E|_]; [apply (lower_sep 44 x (or_introl eq_refl)) in E; congruence|].
    rewrite IH. pose proof (split_ne 44 a). destruct (split 44 a); [congruence|]. reflexivity.
Qed.
Lemma no_sep c f : c = 44 \/ c = 58 -> ~ In c (map lower f) -> ~ In c f.
Proof. intros C N I. apply N. apply in_map_iff. exists c. split; [|exact I]. now apply lower_sep. Qed.
Lemma names_sep c w x : c = 44 \/ c = 58 -> In (w, x) names -> ~ In c w.
Proof.
  intros C I J. assert (F : forallb (fun p => forallb (fun d => negb (d =? 44) && negb (d =? 58)) (fst p)) names = true) by (vm_compute; reflexivity).
  rewrite forallb_forall in F. specialize (F _ I). rewrite forallb_forall in F. specialize (F _ J). destruct C as [-> | ->]; discriminate.
Qed.
Lemma words_sep c w : c = 44 \/ c = 58 -> In w words -> ~ In c w.
Proof.
  intros C I J. assert (F : forallb (forallb (fun d => negb (d =? 44) && negb (d =? 58))) words = true) by (vm_compute; reflexivity).
  rewrite forallb_forall in F. specialize (F _ I). rewrite forallb_forall in F. specialize (F _ J). destruct C as [-> | ->]; discriminate.
Qed.
Lemma glue_in c d l : In d (glue c l) -> d = c \/ exists w, In w l /\ In d w.
Proof.
  induction l as [|x l IH]; [intros []|]. destruct l as [|y l].
  - cbn. intros I. right. exists x. auto.
  - cbn [glue]. intros I. apply in_app_or in I as [I|[I|I]]; [right; exists x; cbn; auto|auto|].
    destruct (IH I) as [E|(w & Iw & J)]; [auto|right; exists w; split; [now right|auto]].
Qed.
Lemma split_ascii c s : ascii s -> Forall ascii (split c s).
Proof.
  unfold ascii. induction s as [|x r IH]; intros A; cbn [split]; [repeat constructor|]. inversion A; subst.
  destruct (x =? c); [constructor; auto|]. specialize (IH ltac:(assumption)). destruct (split c r); [repeat constructor; auto|].
  inversion IH; subst. constructor; auto.
Qed.

Lemma ansi_says x out : ascii x -> color_to_ansi tolower ansi x = Some out <-> colour_text x out.
Proof.
  intros A. unfold color_to_ansi, colour_text. split.
  - pose proof (glue_split 58 x) as G. pose proof (split_ascii 58 x A) as As.
    destruct (split 58 x) as [|a [|f [|b [|? ?]]]]; try discriminate. cbn [glue] in G.
    inversion As as [|? ? Aa As']; subst. inversion As' as [|? ? Af As'']; subst. inversion As'' as [|? ? Ab _]; subst.
    rewrite (low a Aa), split_lower, attributes_says.
    2: { rewrite Forall_map. eapply Forall_impl; [|apply split_ascii; exact Aa]. intros w. apply map_lower_ascii. }
    destruct (forallb _ _) eqn:Fa; [|discriminate]. cbn [obind a_bold a_underline a_reverse orb].
    destruct (text_to_color tolower f) as [cf|] eqn:Ef; [|discriminate]. cbn [obind].
    destruct (text_to_color tolower b) as [cb|] eqn:Eb; [|discriminate]. cbn [obind].
    apply color_says in Ef; [|exact Af]. apply color_says in Eb; [|exact Ab]. intros H.
    exists (split 44 a), f, b, cf, cb. rewrite glue_split. split; [reflexivity|]. split; [apply split_ne|]. split.
    { intros w I. rewrite forallb_forall in Fa. specialize (Fa (map lower w) (in_map _ _ _ I)). rewrite map_lower_idem in Fa. now apply mem_In. }
    split; [exact Ef|]. split; [exact Eb|]. rewrite <- H. rewrite map_map.
    rewrite !(map_ext (fun x => map lower (map lower x)) (map lower) map_lower_idem). reflexivity.
  - intros (ws & f & b & cf & cb & -> & Ne & Wo & Nf & Nb & H).
    assert (N58 : ~ In 58 (glue 44 ws)).
    { intros I. apply glue_in in I as [E|(w & Iw & J)]; [discriminate|]. revert J. apply (no_sep 58); [auto|]. apply words_sep; auto. }
    assert (Af : ascii f /\ ascii b /\ ascii (glue 44 ws)).
    { unfold ascii in *. apply Forall_app in A as [A1 A2]. inversion A2 as [|? ? _ A3]; subst. apply Forall_app in A3 as [A4 A5]. inversion A5; subst. auto. }
    destruct Af as (Af & Ab & Aw).
    rewrite split_app by exact N58. rewrite split_app by (apply (no_sep 58); [auto|]; eapply names_sep; eauto).
    rewrite split_plain by (apply (no_sep 58); [auto|]; eapply names_sep; eauto).
    rewrite (low _ Aw), split_lower, split_glue; auto.
    2: { apply Forall_forall. intros w I. apply (no_sep 44); [auto|]. apply words_sep; auto. }
    rewrite attributes_says.
    2: { rewrite Forall_map. apply Forall_forall. intros w I. apply map_lower_ascii. unfold ascii in *.
         clear - I Aw. induction ws as [|y ws IH]; [destruct I|]. destruct ws as [|z ws].
         - destruct I as [<-|[]]. exact Aw.
         - cbn [glue] in Aw. apply Forall_app in Aw as [A1 A2]. inversion A2; subst. destruct I as [<-|I]; auto. }
    replace (forallb _ _) with true.
    2: { symmetry. apply forallb_forall. intros w I. apply in_map_iff in I as (w' & <- & I). rewrite map_lower_idem. apply mem_In. auto. }
    cbn [obind a_bold a_underline a_reverse orb].
    rewrite (proj2 (color_says f cf Af)) by auto. rewrite (proj2 (color_says b cb Ab)) by auto. cbn [obind].
    rewrite <- H. rewrite map_map. rewrite !(map_ext (fun x => map lower (map lower x)) (map lower) map_lower_idem). reflexivity.
Qed.

Lemma color_setting t key old out : (forall v, conf_get t (bs "ui") key = Some v -> ascii v) ->
  color tolower ansi t key old = Some out <-> says_colour (conf_get t (bs "ui") key) old out.
Proof.
  intros A. unfold color, says_colour. destruct (conf_get t (bs "ui") key) as [v|]; [apply ansi_says; auto|split; congruence].
Qed.
Lemma path_setting t sec key old p : expand home join (text t sec key old) = Some p <-> says_path (conf_get t sec key) old p.
Proof.
  unfold text, says_path. rewrite expand_says. split; [eauto|]. intros (x & -> & H). exact H.
Qed.

Lemma read_says t s : (forall key v, conf_get t (bs "ui") key = Some v -> ascii v) ->
  read_settings home join tolower ansi t = Some s <-> configured (conf_get t) s.
Proof.
  intros A. unfold read_settings, configured, obind, default_root, default_log.
  split.
  - intros H.
    repeat match type of H with
    | context[match ?x with Some _ => _ | None => None end] => destruct x eqn:?; [|discriminate H]
    end.
    injection H as <-. cbn [s_root s_tls s_beep s_separator s_history s_logfile s_time s_longtime s_debug s_profiler s_nick s_gc s_pm].
    repeat split; try (now apply path_setting); try (now apply bool_says); try (apply color_setting; [intros v; apply A|assumption]); auto.
  - intros (H1 & H2 & H3 & H4 & H5 & H6 & H7 & H8 & H9 & H10 & H11 & H12 & H13).
    apply path_setting in H1, H6. apply bool_says in H2, H3, H4, H5, H9.
    apply color_setting in H11, H12, H13; try (apply A).
    rewrite H1, H2, H3, H4, H5, H6, H9, H11, H12, H13. unfold says_text in *.
    destruct s. cbn in *. unfold text. congruence.
Qed.

Lemma read_ext t t' : (forall sec key, conf_get t sec key = conf_get t' sec key) ->
  read_settings home join tolower ansi t = read_settings home join tolower ansi t'.
Proof. intros E. unfold read_settings, ini_bool, color, text. now rewrite !E. Qed.
End Meaning.

(** ** The settings *)

(** The laws of the library: strings.ToLower of ASCII. *)
Definition lowers (tolower : bytes -> bytes) : Prop := forall s, ascii s -> tolower s = map lower s.

(** The program starts with exactly the settings that the file says: the last value
    of every key in its section, up to the first broken line, or the value built in;
    and it refuses to start if a value is none of the allowed ones, or if there
    is a broken line in a file given with -cfg. *)
Theorem C80_settings : forall home join tolower ansi, lowers tolower ->
  forall given c s, (forall key v, value c (bs "ui") key = Some v -> ascii v) ->
  obtain home join tolower ansi given (Content c) = Some s <->
  (given = true -> sound (lines c)) /\ configured home join ansi (value c) s.
Proof.
  intros home join tolower ansi L given c s A. cbn [obtain]. pose proof (load_ok c) as Ok. pose proof (load_value c) as V.
  destruct (load c) as [t ok]. cbn [fst snd] in *.
  assert (R : read_settings home join tolower ansi t = Some s <-> configured home join ansi (value c) s).
  { rewrite read_says; [|exact L|intros key v E; rewrite V in E; eauto].
    unfold configured. now rewrite !V. }
  destruct ok, given; cbn [negb andb].
  - rewrite R. intuition.
  - rewrite R. intuition discriminate.
  - split; [discriminate|]. intros [S _]. specialize (S eq_refl). apply Ok in S. discriminate.
  - rewrite R. intuition discriminate.
Qed.
Print Assumptions C80_settings.

Lemma lines_app x r : lines (x ++ 10 :: r) = lines x ++ lines r.
Proof.
  induction x as [|c x IH]; [reflexivity|]. cbn [app lines]. destruct (N.eqb c LF); [cbn [app]; now rewrite IH|].
  rewrite IH. destruct (lines x) as [|l ls] eqn:E; [|reflexivity].
  exfalso. clear - E. destruct x as [|d x]; cbn in E; [discriminate|]. destruct (N.eqb d LF); [discriminate|]. destruct (lines x); discriminate.
Qed.
Lemma lines_one l : ~ In 10 l -> lines l = [l].
Proof.
  induction l as [|c l IH]; intros N; [reflexivity|]. cbn [lines]. destruct (N.eqb_spec c LF) as [->|]; [destruct N; now left|].
  rewrite IH; [reflexivity|]. intros I. apply N. now right.
Qed.

Lemma obtain_ext home join tolower ansi c c' : (forall sec key, value c sec key = value c' sec key) ->
  forall given, (given = true -> (sound (lines c) <-> sound (lines c'))) ->
  obtain home join tolower ansi given (Content c) = obtain home join tolower ansi given (Content c').
Proof.
  intros V given S. cbn [obtain]. pose proof (load_ok c) as O1. pose proof (load_ok c') as O2.
  assert (E : read_settings home join tolower ansi (fst (load c)) = read_settings home join tolower ansi (fst (load c'))).
  { apply read_ext. intros sec key. rewrite !load_value. apply V. }
  destruct (load c) as [t ok], (load c') as [t' ok']. cbn [fst snd] in *. rewrite E.
  destruct given; [|now rewrite !andb_false_r]. rewrite !andb_true_r. specialize (S eq_refl).
  destruct ok, ok'; try reflexivity; exfalso; intuition discriminate.
Qed.

(** A broken line in the file of the default name: nothing is reported, and
    all that follows it, whatever it is, might as well not be there. *)
Theorem C80_broken : forall home join tolower ansi x l y, ~ In 10 l -> kind_of l = Broken ->
  obtain home join tolower ansi false (Content (x ++ 10 :: l ++ 10 :: y)) = obtain home join tolower ansi false (Content x) /\
  obtain home join tolower ansi true (Content (x ++ 10 :: l ++ 10 :: y)) = None.
Proof.
  intros home join tolower ansi x l y N K. assert (E : lines (x ++ 10 :: l ++ 10 :: y) = lines x ++ l :: lines y).
  { rewrite lines_app, lines_app, (lines_one l N). reflexivity. }
  split.
  - apply obtain_ext; [|discriminate]. intros sec key. unfold value. now rewrite E, assigned_broken.
  - cbn [obtain]. pose proof (load_ok (x ++ 10 :: l ++ 10 :: y)) as O. destruct (load _) as [t ok]. cbn [snd] in O.
    destruct ok; [|reflexivity]. exfalso. apply proj1 in O. specialize (O eq_refl). rewrite E in O. unfold sound in O.
    apply Forall_app in O as [_ O]. inversion O; congruence.
Qed.
Print Assumptions C80_broken.

(** So a file that names another directory may be read without complaint and the
    account in the default directory be used. *)
Definition typo : bytes := bs "tlsverbose" ++ 10 :: bs "root = /secret".
Theorem C80_root_refuted :
  ~ (forall home join tolower ansi c s, lowers tolower -> obtain home join tolower ansi false (Content c) = Some s ->
       forall v, In (Assign (bs "root") v) (map kind_of (lines c)) -> (forall n, ~ In (Header n) (map kind_of (lines c))) ->
       (forall v', In (Assign (bs "root") v') (map kind_of (lines c)) -> v' = v) -> (forall r, v <> 126 :: r) -> s_root s = v).
Proof.
  intros F.
  assert (H : exists s, obtain (bs "/home/ann") (fun a b => a ++ b) (map lower) (fun _ _ _ => Some []) false (Content typo) = Some s /\
    s_root s = bs "/home/ann/.zkclient") by (eexists; split; vm_compute; reflexivity).
  destruct H as (s & H & R). assert (K : map kind_of (lines typo) = [Broken; Assign (bs "root") (bs "/secret")]) by (vm_compute; reflexivity).
  specialize (F _ _ _ _ _ _ (fun _ _ => eq_refl) H (bs "/secret")). rewrite K, R in F.
  assert (E : bs "/home/ann/.zkclient" = bs "/secret"); [|discriminate E].
  apply F.
  - right. left. reflexivity.
  - intros n [E|[E|[]]]; discriminate.
  - intros v [E|[E|[]]]; [discriminate|]. injection E as <-. reflexivity.
  - discriminate.
Qed.
Print Assumptions C80_root_refuted.

(** The keys that mean something. *)
Definition known : list (bytes * bytes) :=
  [([], bs "root"); ([], bs "tlsverbose"); ([], bs "beep"); ([], bs "separator");
   (bs "log", bs "savehistory"); (bs "log", bs "logfile"); (bs "log", bs "timeformat"); (bs "log", bs "longtimeformat");
   (bs "log", bs "debug"); (bs "log", bs "profiler");
   (bs "ui", bs "nickcolor"); (bs "ui", bs "gcothercolor"); (bs "ui", bs "pmothercolor")].

Lemma read_known home join tolower ansi t t' : (forall sec key, In (sec, key) known -> conf_get t sec key = conf_get t' sec key) ->
  read_settings home join tolower ansi t = read_settings home join tolower ansi t'.
Proof.
  intros E. unfold read_settings, ini_bool, color, text.
  repeat match goal with |- context[conf_get t ?a ?b] => rewrite (E a b) by (unfold known; cbn [In]; tauto) end. reflexivity.
Qed.

Lemma last_app sec key a b : last_of sec key (a ++ b) = match last_of sec key b with Some v => Some v | None => last_of sec key a end.
Proof.
  induction a as [|[[s k] v] a IH]; cbn [app last_of]; [now destruct (last_of sec key b)|].
  rewrite IH. destruct (last_of sec key b); reflexivity.
Qed.

(** An assignment to a key that means nothing is ignored without a word. *)
Lemma assigned_unknown l k v b : kind_of l = Assign k v -> forall sec key, k <> key -> forall a cur,
  last_of sec key (assigned cur (a ++ l :: b)) = last_of sec key (assigned cur (a ++ b)).
Proof.
  intros K sec key Nk. induction a as [|x a IH]; intros cur; cbn [app assigned].
  - rewrite K. cbn [last_of]. destruct (last_of sec key (assigned cur b)); [reflexivity|].
    destruct (eqb_spec k key); [congruence|]. now rewrite andb_false_r.
  - destruct (kind_of x); auto. cbn [last_of]. now rewrite IH.
Qed.
Theorem C80_unknown : forall home join tolower ansi given x l y k v, ~ In 10 l -> kind_of l = Assign k v -> ~ In k (map snd known) ->
  obtain home join tolower ansi given (Content (x ++ 10 :: l ++ 10 :: y)) = obtain home join tolower ansi given (Content (x ++ 10 :: y)).
Proof.
  intros home join tolower ansi given x l y k v N K U.
  assert (E : lines (x ++ 10 :: l ++ 10 :: y) = lines x ++ l :: lines y) by (rewrite lines_app, lines_app, (lines_one l N); reflexivity).
  assert (E' : lines (x ++ 10 :: y) = lines x ++ lines y) by apply lines_app.
  cbn [obtain]. pose proof (load_ok (x ++ 10 :: l ++ 10 :: y)) as O1. pose proof (load_ok (x ++ 10 :: y)) as O2.
  assert (R : read_settings home join tolower ansi (fst (load (x ++ 10 :: l ++ 10 :: y))) = read_settings home join tolower ansi (fst (load (x ++ 10 :: y)))).
  { apply read_known. intros sec key I. rewrite !load_value. unfold value. rewrite E, E'. eapply assigned_unknown; [exact K|].
    intros ->. apply U. change key with (snd (sec, key)). now apply in_map. }
  assert (S : sound (lines (x ++ 10 :: l ++ 10 :: y)) <-> sound (lines (x ++ 10 :: y))).
  { rewrite E, E'. unfold sound. rewrite !Forall_app. split; intros [A B]; split; auto; [now inversion B|constructor; auto; congruence]. }
  destruct (load (x ++ 10 :: l ++ 10 :: y)) as [t ok], (load (x ++ 10 :: y)) as [t' ok']. cbn [fst snd] in *. rewrite R.
  destruct ok, ok', given; try reflexivity; exfalso; intuition discriminate.
Qed.
Print Assumptions C80_unknown.

(** The first start writes a file and means it; a file that cannot be read
    is as good as an empty one, which is not the same. *)
Theorem C80_first : forall home join tolower ansi nick gc pm, lowers tolower ->
  ansi (mkAttrs true false false) NA NA = Some nick -> ansi (mkAttrs true false false) Green NA = Some gc ->
  ansi (mkAttrs true false false) Cyan NA = Some pm ->
  obtain home join tolower ansi false Missing =
    Some (mkSettings (join home (bs "/.zkclient")) true false false false (join home (bs "/.zkclient/zkclient.log"))
            (bs "15:04:05") (bs "2006-01-02 15:04:05") false (bs "127.0.0.1:6061") nick gc pm) /\
  obtain home join tolower ansi false Unreadable =
    Some (mkSettings (join home (bs "/.zkclient")) true false false false (join home (bs "/.zkclient/zkclient.log"))
            (bs "15:04:05") (bs "2006-01-02 15:04:05") false (bs "localhost:6061") (bold ansi White) gc pm) /\
  obtain home join tolower ansi true Missing = None /\ obtain home join tolower ansi true Unreadable = None /\
  (forall given, obtain home join tolower ansi given Directory = None).
Proof.
  intros home join tolower ansi nick gc pm L A1 A2 A3.
  split; [|split; [|split; [reflexivity|split; reflexivity]]].
  - cbn [obtain].
    assert (V : forall sec key, conf_get (fst (load default_conf)) sec key = value default_conf sec key) by apply load_value.
    assert (C : forall w, ascii w -> color_to_ansi tolower ansi w = color_to_ansi (map lower) ansi w).
    { intros w A. destruct (color_to_ansi tolower ansi w) as [o|] eqn:E1.
      - apply (ansi_says home join tolower ansi L w o A) in E1. symmetry. now apply (ansi_says home join (map lower) ansi (fun _ _ => eq_refl) w o A).
      - destruct (color_to_ansi (map lower) ansi w) as [o|] eqn:E2; [|reflexivity].
        apply (ansi_says home join (map lower) ansi (fun _ _ => eq_refl) w o A) in E2. apply (ansi_says home join tolower ansi L w o A) in E2. congruence. }
    assert (asc : forall w, forallb (fun c => c <? 128) w = true -> ascii w).
    { intros w H. apply Forall_forall. intros c I. rewrite forallb_forall in H. apply N.ltb_lt. auto. }
    assert (T : forall t, t = fst (load default_conf) -> read_settings home join tolower ansi t = read_settings home join (map lower) ansi t).
    { intros t ->. unfold read_settings, color.
      replace (conf_get (fst (load default_conf)) (bs "ui") (bs "nickcolor")) with (Some (bs "bold:na:na")) by (vm_compute; reflexivity).
      replace (conf_get (fst (load default_conf)) (bs "ui") (bs "gcothercolor")) with (Some (bs "bold:green:na")) by (vm_compute; reflexivity).
      replace (conf_get (fst (load default_conf)) (bs "ui") (bs "pmothercolor")) with (Some (bs "bold:cyan:na")) by (vm_compute; reflexivity).
      rewrite !C by (apply asc; reflexivity). reflexivity. }
    rewrite (T _ eq_refl). vm_compute. vm_compute in A1, A2, A3. rewrite A1, A2, A3. reflexivity.
  - cbn [obtain]. unfold read_settings, ini_bool, color, text, bold. cbn [conf_get mget obind expand default_root default_log bs].
    rewrite A2, A3. reflexivity.
Qed.
Print Assumptions C80_first.

(** Colours without an attribute cannot be asked for, although the file that the client writes says how:
    none is not an attribute. *)
Theorem C80_none_refuted : forall home join tolower ansi given c key f b, lowers tolower ->
  In key [bs "nickcolor"; bs "gcothercolor"; bs "pmothercolor"] -> ascii f -> ascii b ->
  value c (bs "ui") key = Some (bs "none" ++ 58 :: f ++ 58 :: b) -> obtain home join tolower ansi given (Content c) = None.
Proof.
  intros home join tolower ansi given c key f b L I Af Ab V. cbn [obtain]. pose proof (load_value c (bs "ui") key) as E. rewrite V in E.
  destruct (load c) as [t ok]. cbn [fst] in E. destruct (negb ok && given); [reflexivity|].
  assert (N : color_to_ansi tolower ansi (bs "none" ++ 58 :: f ++ 58 :: b) = None).
  { unfold color_to_ansi. rewrite split_app by (vm_compute; intuition discriminate).
    destruct (split 58 (f ++ 58 :: b)) as [|f' [|b' [|? ?]]]; try reflexivity.
    rewrite L by (repeat constructor). change (map lower (bs "none")) with (bs "none").
    rewrite split_plain by (vm_compute; intuition discriminate). cbn [attributes]. rewrite L by (repeat constructor). reflexivity. }
  assert (K : color tolower ansi t key (bold ansi White) = None /\ color tolower ansi t key (bold ansi Green) = None /\
    color tolower ansi t key (bold ansi Cyan) = None).
  { unfold color. rewrite E, N. auto. }
  unfold read_settings, obind. destruct K as (K1 & K2 & K3).
  destruct I as [<-|[<-|[<-|[]]]]; try rewrite K1; try rewrite K2; try rewrite K3;
    repeat match goal with |- context[match ?x with Some _ => _ | None => None end] => destruct x end; reflexivity.
Qed.
Print Assumptions C80_none_refuted.

(** With savehistory everything that is typed is kept in the history file, the text
    of messages like anything else; the file that the client writes says
    "saves commands but not text". *)
Theorem C80_history : forall typed line, In line typed -> line <> [] ->
  exists a b, fold_left append_file typed [] = a ++ line ++ 10 :: b.
Proof.
  assert (G : forall typed f, exists b, fold_left append_file typed f = f ++ b).
  { induction typed as [|x l IH]; intros f; cbn [fold_left]; [exists []; now rewrite app_nil_r|].
    destruct (IH (append_file f x)) as [b E]. rewrite E. unfold append_file. destruct x as [|c x]; [eauto|].
    rewrite <- !app_assoc. eauto. }
  assert (H : forall typed line, In line typed -> line <> [] -> forall f, exists a b, fold_left append_file typed f = a ++ line ++ 10 :: b).
  { induction typed as [|x l IH]; intros line I N f; [destruct I|]. cbn [fold_left]. destruct I as [->|I]; [|now apply IH].
    destruct (G l (append_file f line)) as [b E]. rewrite E. unfold append_file. destruct line as [|c x]; [congruence|].
    exists f, b. rewrite <- !app_assoc. reflexivity. }
  intros typed line I N. now apply H.
Qed.
Print Assumptions C80_history.

(** ** Cases *)
Definition sample : bytes := concat (map (fun l => l ++ [10])
  [bs "root = /data"; bs "beep = YES"; bs "beeep = maybe"; bs "[log]"; bs "root = /ignored"; bs "debug = no"; bs "debug=Yes";
   bs "[ui]"; bs "nickcolor = bold,Underline:RED:na"]).
Definition show (a : attrs) (f b : colour) : option bytes :=
  Some [if a_bold a then 1 else 0; if a_underline a then 1 else 0; match f with Red => 7 | Green => 8 | _ => 0 end].
Example C80_case :
  sound (lines sample) /\ lowers (map lower) /\
  option_map (fun s => (s_root s, s_beep s, s_debug s, s_nick s, s_gc s)) (obtain (bs "/h") (fun a b => a ++ b) (map lower) show true (Content sample))
    = Some (bs "/data", true, true, [1; 1; 7], [1; 0; 8]) /\
  obtain (bs "/h") (fun a b => a ++ b) (map lower) show false (Content (bs "beep = maybe")) = None /\
  obtain (bs "/h") (fun a b => a ++ b) (map lower) show false (Content (bs "root = ~bob/x")) = None /\
  kind_of (bs "tlsverbose") = Broken /\ kind_of (bs "savehistroy = no") = Assign (bs "savehistroy") (bs "no").
Proof.
  split; [|split; [intros s _; reflexivity|vm_compute; auto 10]].
  unfold sound. vm_compute. repeat constructor; discriminate.
Qed.
