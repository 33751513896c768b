(** What is left of a database that was saved on a full disk. *)
From Verif Require Import Base IniModel IniMemProofs IniFileProofs IniDiskProofs IniProps SpaceModel.
From Coq Require Import Permutation ZArith Sorted Lia.
Local Open Scope N_scope.

(** * C87 *)

Definition prefix_of (a b : bytes) : Prop := exists s, b = a ++ s.

(** What may be left of the records of a table, and of the tables: the first ones, and the value of
    the record after them cut short. *)
Definition cut_records (rs rs' : section) : Prop :=
  (exists more, rs = rs' ++ more) \/
  (exists before k v v' more, rs = before ++ (k, v) :: more /\ rs' = before ++ [(k, v')] /\ prefix_of v' v).
Definition cut_tables (order left : tables) : Prop :=
  (exists more, order = left ++ more) \/
  (exists before n rs rs' more, order = before ++ (n, rs) :: more /\ left = before ++ [(n, rs')] /\ cut_records rs rs').

(** The lines of [p] that are whole are lines of [f]. *)
Definition whole_lines_in (p f : bytes) : Prop := exists whole part, p = whole ++ part /\ ~ In LF part /\ prefix_of whole f.

(** ** The writes *)

Lemma table_writes_concat tv : concat (table_writes tv) = render_table tv.
Proof.
  unfold table_writes, render_table. rewrite !concat_app. cbn [concat]. rewrite app_nil_r. destruct (fst tv); cbn [concat]; [reflexivity|]. now rewrite app_nil_r.
Qed.
Lemma save_writes_concat order : concat (save_writes order) = render order.
Proof.
  unfold save_writes, render. cbn [concat]. rewrite <- app_assoc. do 2 f_equal. induction order as [|tv order IH]; [reflexivity|].
  cbn [map concat]. rewrite concat_app, table_writes_concat, IH. reflexivity.
Qed.
Lemma takes_concat ws : forall room, concat (takes room ws) = firstn room (concat ws).
Proof. induction ws as [|w ws IH]; intros room; cbn [takes concat]; [now rewrite firstn_nil|]. now rewrite IH, firstn_app. Qed.

(** ** Reading a part of a file *)

Lemma rtrim_prefix : forall s, exists r, s = rev (trim_left (rev s)) ++ r.
Proof.
  intros s. assert (H : forall l, exists p, l = p ++ trim_left l).
  { induction l as [|c l [p IH]]; [exists []; reflexivity|]. cbn [trim_left]. destruct (is_space c).
    - exists (c :: p). cbn. now rewrite <- IH.
    - exists []. reflexivity. }
  destruct (H (rev s)) as [p E]. exists (rev p). apply (f_equal (@rev N)) in E. rewrite rev_involutive, rev_app_distr in E. exact E.
Qed.
Lemma rtrim_keeps a c w : is_space c = false -> rev (trim_left (rev (a ++ c :: w))) = a ++ c :: rev (trim_left (rev w)).
Proof.
  intros S. rewrite rev_app_distr. cbn [rev]. rewrite <- app_assoc.
  assert (H : forall l m, trim_left (l ++ [c] ++ m) = trim_left l ++ [c] ++ m).
  { induction l as [|x l IH]; intros m; cbn [app trim_left]; [now rewrite S|]. destruct (is_space x); [apply IH|reflexivity]. }
  rewrite H, !rev_app_distr, rev_involutive. cbn [rev app]. rewrite <- app_assoc. reflexivity.
Qed.
Lemma rtrim_last s : rev (trim_left (rev s)) <> [] -> is_space (last (rev (trim_left (rev s))) 0) = false.
Proof.
  assert (H : forall l, trim_left l <> [] -> exists c r, trim_left l = c :: r /\ is_space c = false).
  { induction l as [|c l IH]; cbn; [congruence|]. destruct (is_space c) eqn:E; [exact IH|]. intros _. now exists c, l. }
  intros NE. destruct (H (rev s)) as (c & r & E & S). { intros E. rewrite E in NE. now apply NE. }
  rewrite E. cbn [rev]. rewrite last_last. exact S.
Qed.
Lemma ensure_lookup f c n k : lookup (ensure f c) n k = lookup f n k.
Proof.
  unfold ensure, lookup. destruct (mget f c) as [s|] eqn:E; [reflexivity|]. destruct (eqb_spec n c) as [->|D].
  - rewrite mget_mset_eq, E. reflexivity.
  - rewrite mget_mset_ne by auto. reflexivity.
Qed.
Lemma trim_in x s : In x (trim s) -> In x s.
Proof.
  assert (H : forall l, In x (trim_left l) -> In x l).
  { induction l as [|c l IH]; cbn; [auto|]. destruct (is_space c); [right; auto|auto]. }
  unfold trim. rewrite <- in_rev. intros I. apply H in I. rewrite <- in_rev in I. now apply H.
Qed.

(** A line without '=' changes no record. *)
Lemma line_without cur f pre st : ~ In EQ pre -> parse_line (cur, f) pre = Some st -> forall n k, lookup (snd st) n k = lookup f n k.
Proof.
  intros NE. unfold parse_line, match_assign. rewrite split_eq_none by (intros I; apply NE; now apply trim_in).
  destruct (trim pre) as [|c l]; [intros [= <-]; reflexivity|]. destruct (_ || _); [intros [= <-]; reflexivity|].
  destruct (match_section (c :: l)) as [m|]; [|discriminate]. intros [= <-] n k. apply ensure_lookup.
Qed.

(** The line of a record cut after the '='. *)
Lemma line_cut cur f k v w : clean_key k -> clean v -> prefix_of w (SP :: v) ->
  exists v', parse_line (cur, f) (k ++ [SP; EQ] ++ w) = Some (cur, put f cur k v') /\ prefix_of v' v /\ clean v'.
Proof.
  intros Ck Cv [s W]. set (w' := rev (trim_left (rev w))).
  (* what the value becomes *)
  assert (V : prefix_of (trim w') v /\ clean (trim w')).
  { destruct (rtrim_prefix w) as [r Er]. fold w' in Er. assert (P : exists s', SP :: v = w' ++ s') by (exists (r ++ s); now rewrite app_assoc, <- Er).
    destruct P as [s' P]. clearbody w'. destruct w' as [|c v1]; [split; [now exists v|split; [intros []|exact I]]|].
    cbn [app] in P. pose proof (f_equal (hd 0) P) as Ec. cbn in Ec. subst c. pose proof (f_equal (@tl _) P) as Ev. cbn [tl] in Ev.
    destruct v1 as [|x v1]; [split; [now exists v|split; [intros []|exact I]]|].
    assert (Sx : is_space x = false) by (rewrite Ev in Cv; apply Cv).
    unfold trim. cbn [trim_left]. change (is_space SP) with true. cbv iota. rewrite Sx.
    destruct (rtrim_prefix (x :: v1)) as [r' Er']. set (u := rev (trim_left (rev (x :: v1)))) in *.
    pose proof (rtrim_last (x :: v1)) as L. fold u in L. split; [exists (r' ++ s'); now rewrite app_assoc, <- Er', Ev|].
    clearbody u. split.
    - intros I. apply (proj1 Cv). rewrite Ev, Er'. apply in_or_app. left. apply in_or_app. now left.
    - destruct u as [|y u]; [exact I|]. split; [|apply L; discriminate]. cbn [app] in Er'. pose proof (f_equal (hd 0) Er') as Y. cbn in Y. now subst y. }
  exists (trim w'). split; [|exact V]. destruct Ck as (Ck & Ne & Hk). destruct k as [|c k]; [destruct Hk|]. destruct Hk as [H1 H2].
  assert (T : trim ((c :: k) ++ [SP; EQ] ++ w) = ((c :: k) ++ [SP]) ++ EQ :: w').
  { unfold trim. change ((c :: k) ++ [SP; EQ] ++ w) with (c :: (k ++ SP :: EQ :: w)). cbn [trim_left]. rewrite (proj1 (proj2 Ck)).
    replace (c :: (k ++ SP :: EQ :: w)) with (((c :: k) ++ [SP]) ++ EQ :: w) by (rewrite <- app_assoc; reflexivity).
    now rewrite rtrim_keeps by reflexivity. }
  unfold parse_line. rewrite T. cbn [app]. apply N.eqb_neq in H1, H2. rewrite H1, H2. cbn [orb]. unfold match_assign.
  change (c :: (k ++ [SP]) ++ EQ :: w') with (((c :: k) ++ [SP]) ++ EQ :: w'). rewrite split_eq_app.
  2:{ intros I. apply in_app_or in I as [I|[I|[]]]; [auto|discriminate]. }
  cbn [app]. change (c :: k ++ [SP]) with ((c :: k) ++ [SP]). rewrite trim_snoc_space by (auto; discriminate).
  unfold put, ensure. destruct (mget f cur) as [x|] eqn:Ef; [now rewrite Ef|]. rewrite mget_mset_eq. reflexivity.
Qed.

(** A text that is cut, at a line. *)
Lemma cut_line (l r p q : bytes) : p ++ q = l ++ LF :: r -> (exists s, l = p ++ s) \/ (exists p', p = l ++ LF :: p' /\ p' ++ q = r).
Proof.
  revert p. induction l as [|c l IH]; intros p E.
  - destruct p as [|x p]; [left; now exists []|]. right. exists p. cbn in E. pose proof (f_equal (hd 0) E) as Ex. cbn in Ex. pose proof (f_equal (@tl _) E) as Et. cbn in Et. subst x. auto.
  - destruct p as [|x p]; [left; now exists (c :: l)|]. cbn in E. pose proof (f_equal (hd 0) E) as Ex. cbn in Ex. pose proof (f_equal (@tl _) E) as Et. cbn [tl] in Et. subst x.
    destruct (IH p Et) as [[s ->]|(p' & -> & E')]; [left; now exists s|right; now exists p'].
Qed.
Lemma lines_one p : ~ In LF p -> lines p = [p].
Proof.
  induction p as [|c p IH]; intros NI; [reflexivity|]. cbn [lines]. destruct (N.eqb_spec c LF) as [->|]; [exfalso; apply NI; now left|].
  rewrite IH; [reflexivity|]. intros I. apply NI. now right.
Qed.
Lemma read_one st p : ~ In LF p -> parse_lines st (lines p) = parse_line st p.
Proof. intros NI. rewrite lines_one by exact NI. cbn [parse_lines]. now destruct (parse_line st p). Qed.

Definition clean_recs (rs : section) : Prop := Forall (fun kv => clean_key (fst kv) /\ clean (snd kv)) rs.

Lemma cut_records_cons kv rs rs' : cut_records rs rs' -> cut_records (kv :: rs) (kv :: rs').
Proof.
  intros [[more ->]|(b & k & v & v' & more & -> & -> & P)]; [left; now exists more|]. right. exists (kv :: b), k, v, v', more. auto.
Qed.

Lemma read_cut_records rs : forall cur f p q st, clean_recs rs -> p ++ q = concat (map render_record rs) ++ [LF] -> parse_lines (cur, f) (lines p) = Some st ->
  exists rs', cut_records rs rs' /\ clean_recs rs' /\ (forall n k, lookup (snd st) n k = lookup (put_all f cur rs') n k) /\
              whole_lines_in p (concat (map render_record rs') ++ [LF]).
Proof.
  induction rs as [|[k v] rs IH]; intros cur f p q st C E R.
  - exists []. split; [left; now exists []|]. split; [constructor|]. cbn [map concat app] in E.
    destruct (cut_line [] [] p q E) as [[s Es]|(p' & -> & E')].
    + symmetry in Es. apply app_eq_nil in Es as [-> ->]. cbn in R. injection R as <-. split; [reflexivity|]. exists [], []. split; [reflexivity|]. split; [intros []|]. now exists [LF].
    + apply app_eq_nil in E' as [-> ->]. cbn in R. injection R as <-. split; [reflexivity|]. exists [LF], []. split; [reflexivity|]. split; [intros []|]. now exists [].
  - inversion C as [|? ? [Ck Cv] C']; subst. cbn [fst snd] in Ck, Cv.
    cbn [map concat] in E. unfold render_record at 1 in E. cbn [fst snd] in E.
    replace (((k ++ [SP; EQ; SP] ++ v ++ [LF]) ++ concat (map render_record rs)) ++ [LF])
      with ((k ++ [SP; EQ; SP] ++ v) ++ LF :: (concat (map render_record rs) ++ [LF])) in E by (rewrite <- !app_assoc; reflexivity).
    destruct (cut_line _ _ _ _ E) as [[s Es]|(p' & -> & E')].
    + (* within the line of this record *)
      assert (NL : ~ In LF p). { intros I. apply (no_lf_record k v Ck Cv). rewrite Es. apply in_or_app. now left. }
      rewrite read_one in R by exact NL. clear E C IH.
      assert (D : ~ In EQ p \/ exists w, p = k ++ [SP; EQ] ++ w /\ prefix_of w (SP :: v)).
      { replace (k ++ [SP; EQ; SP] ++ v) with ((k ++ [SP]) ++ EQ :: (SP :: v)) in Es by (rewrite <- app_assoc; reflexivity).
        symmetry in Es. apply app_eq_app in Es as [l [[E1 E2]|[E1 E2]]].
        - destruct l as [|x l].
          + left. rewrite app_nil_r in E1. subst p. intros I. apply in_app_or in I as [I|[I|[]]]; [now apply (proj1 (proj2 Ck))|discriminate].
          + right. cbn [app] in E2. pose proof (f_equal (hd 0) E2) as Ex. cbn in Ex. pose proof (f_equal (@tl _) E2) as Et. cbn [tl] in Et. subst x.
            exists l. split; [rewrite E1, <- app_assoc; reflexivity|]. exists s. exact Et.
        - left. intros I. assert (J : In EQ (k ++ [SP])) by (rewrite E1; apply in_or_app; now left).
          apply in_app_or in J as [J|[J|[]]]; [now apply (proj1 (proj2 Ck))|discriminate]. }
      destruct D as [NE|(w & -> & W)].
      * exists []. split; [left; now exists ((k, v) :: rs)|]. split; [constructor|]. split; [exact (line_without cur f p st NE R)|].
        exists [], p. split; [reflexivity|]. split; [exact NL|]. eexists. reflexivity.
      * destruct (line_cut cur f k v w Ck Cv W) as (v' & R' & P & Cv'). rewrite R' in R. injection R as <-.
        exists [(k, v')]. split; [right; exists [], k, v, v', rs; auto|]. split; [constructor; auto|]. split; [reflexivity|].
        eexists [], _. split; [reflexivity|]. split; [exact NL|]. eexists. reflexivity.
    + rewrite parse_lines_cons in R by (now apply no_lf_record). rewrite parse_record in R by auto.
      destruct (IH cur (put f cur k v) p' q st C' E' R) as (rs' & A & B & L & (wh & pt & -> & NL & [s W])).
      exists ((k, v) :: rs'). split; [now apply cut_records_cons|]. split; [constructor; auto|]. split; [exact L|].
      exists ((k ++ [SP; EQ; SP] ++ v) ++ LF :: wh), pt. split; [rewrite <- !app_assoc; reflexivity|]. split; [exact NL|].
      exists s. cbn [map concat]. unfold render_record at 1. cbn [fst snd]. rewrite <- !app_assoc. cbn [app]. do 5 f_equal. rewrite W. reflexivity.
Qed.

Lemma cut_tables_cons tv order left : cut_tables order left -> cut_tables (tv :: order) (tv :: left).
Proof.
  intros [[more ->]|(b & n & rs & rs' & more & -> & -> & P)]; [left; now exists more|]. right. exists (tv :: b), n, rs, rs', more. auto.
Qed.
Lemma nodup_left {A} (l m : list A) : NoDup (l ++ m) -> NoDup l.
Proof. induction l as [|x l IH]; intros H; [constructor|]. inversion H; subst. constructor; [|now apply IH]. intros I. apply H2. apply in_or_app. now left. Qed.

Lemma in_whole_app h p f : whole_lines_in p f -> whole_lines_in (h ++ p) (h ++ f).
Proof.
  intros (wh & pt & -> & NL & [s ->]). exists (h ++ wh), pt. split; [now rewrite app_assoc|]. split; [exact NL|]. exists s. now rewrite app_assoc.
Qed.
Lemma in_whole_more p f g : whole_lines_in p f -> whole_lines_in p (f ++ g).
Proof. intros (wh & pt & -> & NL & [s ->]). exists wh, pt. split; [reflexivity|]. split; [exact NL|]. exists (s ++ g). now rewrite app_assoc. Qed.
Lemma in_whole_part p f : ~ In LF p -> whole_lines_in p f.
Proof. intros NL. exists [], p. split; [reflexivity|]. split; [exact NL|]. now exists f. Qed.

Lemma read_cut_tables order : forall st p q st', Forall clean_table order -> p ++ q = concat (map render_table order) -> parse_lines st (lines p) = Some st' ->
  exists left, cut_tables order left /\ Forall clean_table left /\
    (forall n k, lookup (snd st') n k = lookup (snd (fold_left step_table left st)) n k) /\
    whole_lines_in p (concat (map render_table left)).
Proof.
  induction order as [|[n rs] order IH]; intros st p q st' C E R.
  - apply app_eq_nil in E as [-> ->]. exists []. split; [left; now exists []|]. split; [constructor|]. destruct st as [cur f]. cbn in R. injection R as <-. split; [reflexivity|]. apply in_whole_part. intros [].
  - inversion C as [|? ? [Cn Cr] C']; subst. cbn [fst snd] in Cn, Cr. cbn [map concat] in E.
    apply app_eq_app in E as [l [[E1 E2]|[E1 E2]]].
    + (* this table is whole *)
      rewrite E1 in R. rewrite parse_table in R by (split; auto). symmetry in E2.
      destruct (IH _ l q st' C' E2 R) as (left & A & B & L & W). exists ((n, rs) :: left). split; [now apply cut_tables_cons|].
      split; [constructor; [split; auto|exact B]|]. split; [exact L|]. rewrite E1. cbn [map concat]. now apply in_whole_app.
    + (* within this table *)
      clear E2 q IH C'. destruct st as [cur f]. symmetry in E1. unfold render_table in E1. cbn [fst snd] in E1.
      destruct n as [|c n].
      * cbn [app] in E1. destruct (read_cut_records rs cur f p l st' Cr E1 R) as (rs' & A & B & L & W).
        exists [([], rs')]. split; [right; exists [], [], rs, rs', order; auto|]. split; [constructor; [split; auto|constructor]|]. split; [exact L|].
        cbn [map concat]. rewrite app_nil_r. exact W.
      * replace (([LBR] ++ (c :: n) ++ [RBR; LF]) ++ concat (map render_record rs) ++ [LF])
          with (([LBR] ++ (c :: n) ++ [RBR]) ++ LF :: (concat (map render_record rs) ++ [LF])) in E1 by (rewrite <- !app_assoc; reflexivity).
        assert (NL : ~ In LF ([LBR] ++ (c :: n) ++ [RBR])).
        { intros I. apply in_app_or in I as [[I|[]]|I]; [discriminate|]. apply in_app_or in I as [I|[I|[]]]; [now apply (proj1 (proj1 Cn))|discriminate]. }
        assert (NE : ~ In EQ ([LBR] ++ (c :: n) ++ [RBR])).
        { intros I. apply in_app_or in I as [[I|[]]|I]; [discriminate|]. apply in_app_or in I as [I|[I|[]]]; [now apply (proj2 Cn)|discriminate]. }
        destruct (cut_line _ _ _ _ E1) as [[s Es]|(p' & -> & E')].
        -- assert (NLp : ~ In LF p) by (intros I; apply NL; rewrite Es; apply in_or_app; now left).
           rewrite read_one in R by exact NLp. exists []. split; [left; now exists ((c :: n, rs) :: order)|]. split; [constructor|].
           split; [|now apply in_whole_part]. apply (line_without cur f p st'); [|exact R]. intros I. apply NE. rewrite Es. apply in_or_app. now left.
        -- rewrite parse_lines_cons in R by exact NL. rewrite parse_header in R by (auto; discriminate).
           destruct (read_cut_records rs _ _ p' l st' Cr E' R) as (rs' & A & B & L & W).
           exists [(c :: n, rs')]. split; [right; exists [], (c :: n), rs, rs', order; auto|]. split; [constructor; [split; auto|constructor]|]. split; [exact L|].
           cbn [map concat]. rewrite app_nil_r. unfold render_table. cbn [fst snd].
           replace (([LBR] ++ (c :: n) ++ [RBR]) ++ LF :: p') with (([LBR] ++ (c :: n) ++ [RBR; LF]) ++ p') by (rewrite <- !app_assoc; reflexivity).
           now apply in_whole_app.
Qed.

Lemma cut_is_map order left : cut_tables order left -> is_map order -> is_map left.
Proof.
  assert (K : forall rs rs' : section, cut_records rs rs' -> NoDup (mkeys rs) -> NoDup (mkeys rs')).
  { intros rs rs' [[more ->]|(b & k & v & v' & more & -> & -> & _)] ND; unfold mkeys in *; rewrite map_app in ND.
    - apply nodup_left in ND. exact ND.
    - rewrite map_app. cbn [map fst] in *. change (k :: map fst more) with ([k] ++ map fst more) in ND. rewrite app_assoc in ND. now apply nodup_left in ND. }
  intros [[more ->]|(b & n & rs & rs' & more & -> & -> & P)] [ND F]; unfold is_map, mkeys in *.
  - rewrite map_app in ND. apply nodup_left in ND. apply Forall_app in F as [F _]. auto.
  - rewrite map_app in *. cbn [map fst] in *. change (n :: map fst more) with ([n] ++ map fst more) in ND. rewrite app_assoc in ND. apply nodup_left in ND. split; [exact ND|].
    apply Forall_app in F as [F1 F2]. inversion F2; subst. apply Forall_app. split; [exact F1|]. constructor; [|constructor]. cbn [snd] in *. now apply (K rs rs').
Qed.

(** A cut database has no record that the whole one has not, and a value of it is the stored one or
    its beginning. *)
Lemma cut_records_get rs rs' k v' : cut_records rs rs' -> NoDup (mkeys rs) -> mget rs' k = Some v' -> exists v, mget rs k = Some v /\ prefix_of v' v.
Proof.
  intros [[more ->]|(b & k0 & v0 & v0' & more & -> & -> & P)] ND G; apply mget_In in G.
  - exists v'. split; [|exists []; now rewrite app_nil_r]. apply In_mget; [exact ND|]. apply in_or_app. now left.
  - apply in_app_or in G as [G|[G|[]]].
    + exists v'. split; [|exists []; now rewrite app_nil_r]. apply In_mget; [exact ND|]. apply in_or_app. now left.
    + injection G as <- <-. exists v0. split; [|exact P]. apply In_mget; [exact ND|]. apply in_or_app. right. now left.
Qed.
Lemma cut_lookup order left n k v' : cut_tables order left -> is_map order -> lookup left n k = Some v' -> exists v, lookup order n k = Some v /\ prefix_of v' v.
Proof.
  intros Cut [ND F]. unfold lookup. destruct (mget left n) as [s'|] eqn:G; [|discriminate]. intros Gk. apply mget_In in G. rewrite Forall_forall in F.
  destruct Cut as [[more ->]|(b & n0 & rs & rs' & more & -> & -> & P)].
  - rewrite (In_mget _ n s' ND) by (apply in_or_app; now left). exists v'. split; [exact Gk|exists []; now rewrite app_nil_r].
  - apply in_app_or in G as [G|[G|[]]].
    + rewrite (In_mget _ n s' ND) by (apply in_or_app; now left). exists v'. split; [exact Gk|exists []; now rewrite app_nil_r].
    + injection G as <- <-. assert (J : In (n0, rs) (b ++ (n0, rs) :: more)) by (apply in_or_app; right; now left).
      rewrite (In_mget _ n0 rs ND J). apply (cut_records_get rs rs'); auto. exact (F _ J).
Qed.
Lemma cut_unmixed order left : cut_tables order left -> is_map order -> unmixed order -> unmixed left.
Proof.
  intros Cut M [U|U].
  - left. intros k. destruct (lookup left [] k) as [v'|] eqn:L; [|reflexivity]. destruct (cut_lookup _ _ _ _ _ Cut M L) as (v & G & _). rewrite U in G. discriminate.
  - right. intros n I. apply U. unfold mkeys in *. destruct Cut as [[more ->]|(b & n0 & rs & rs' & more & -> & -> & P)]; rewrite map_app in *; apply in_or_app.
    + now left.
    + apply in_app_or in I as [I|I]; [now left|right]. cbn [map fst] in *. destruct I as [<-|[]]. now left.
Qed.
Lemma iterates_self t : iterates t t.
Proof. exists t. split; [apply Permutation_refl|]. induction t; constructor; auto. Qed.

Lemma read_cut order p q : is_map order -> Forall clean_table order -> unmixed order -> render order = p ++ q ->
  forall t', parse p = Some t' ->
  exists left, cut_tables order left /\ (forall n k, lookup t' n k = lookup left n k) /\ whole_lines_in p (render left).
Proof.
  intros M C U E t' R. unfold parse in R. destruct (parse_lines ([], []) (lines p)) as [[cur f]|] eqn:R'; [|discriminate]. injection R as <-.
  assert (NL : ~ In LF auto). { unfold auto, LF. simpl. intros Hi. repeat (destruct Hi as [Hi|Hi]; [discriminate|]). exact Hi. }
  assert (NE : ~ In EQ auto). { unfold auto, EQ. simpl. intros Hi. repeat (destruct Hi as [Hi|Hi]; [discriminate|]). exact Hi. }
  unfold render in E. symmetry in E. change (auto ++ [LF] ++ concat (map render_table order)) with (auto ++ LF :: concat (map render_table order)) in E.
  destruct (cut_line _ _ _ _ E) as [[s Es]|(p' & -> & E')].
  - assert (NLp : ~ In LF p) by (intros I; apply NL; rewrite Es; apply in_or_app; now left).
    rewrite read_one in R' by exact NLp. exists []. split; [left; now exists order|]. split; [|now apply in_whole_part].
    intros n k. rewrite ensure_lookup. apply (line_without [] [] p (cur, f)); [|exact R']. intros I. apply NE. rewrite Es. apply in_or_app. now left.
  - rewrite parse_lines_cons in R' by exact NL. change (parse_line ([], []) auto) with (Some ([] : bytes, [] : tables)) in R'. cbv beta iota in R'.
    destruct (read_cut_tables order _ p' q _ C E' R') as (left & A & B & L & W). exists left. split; [exact A|]. split.
    + intros n k. specialize (L n k). cbn [snd] in L. rewrite ensure_lookup, L. destruct (save_reopen left left (cut_is_map _ _ A M) B (cut_unmixed _ _ A M U) (iterates_self left)) as (t1 & P1 & S1 & _).
      rewrite parse_render in P1 by exact B. injection P1 as <-. rewrite S1, ensure_lookup. reflexivity.
    + unfold render. change (auto ++ LF :: p') with (auto ++ [LF] ++ p'). now do 2 apply in_whole_app.
Qed.

(** ** Saving *)

(** The database file exists or is to be created. *)
Definition ready (d : dir) (base tmp : bytes) (created : bool) : Prop := is_temp base tmp /\ (created = true \/ mget d base <> None).
(** A database whose texts stay clear of the syntax of the file (C04). *)
Definition fit (t : tables) : Prop := is_map t /\ clean_db t /\ unmixed t.

Lemma saved d base tmp stamp created depth c : ready d base tmp created ->
  exists es, save_dir d base tmp stamp created depth c = (es, true) /\ mget (fs_run d es) base = Some (concat c).
Proof.
  intros [T H]. assert (NB : tmp <> base) by now apply temp_not_base.
  assert (NK : tmp <> base ++ [DOT] ++ stamp). { intros E. apply (temp_not_backup base tmp T). exists stamp. rewrite E. now rewrite ?app_assoc. }
  assert (R : forall e, mget (fs_run d e) base = Some (concat c) -> mget (fs_run d (e ++ map FRemove (prune_list (fs_run d e) base depth))) base = Some (concat c)).
  { intros e E. rewrite fs_run_app, removes. destruct (mem base (prune_list (fs_run d e) base depth)) eqn:M; [|exact E].
    exfalso. apply mem_In in M. unfold prune_list in M. cbv zeta in M.
    assert (P : In base (filter (IniModel.has_prefix (base ++ [DOT])) (read_dir (fs_run d e)))).
    { repeat match type of M with In _ (if ?b then _ else _) => destruct b; [now destruct M|] end. rewrite <- (firstn_skipn (Z.to_nat (Z.of_nat (length (backup_names (fs_run d e) base)) - depth)) (filter _ _)). apply in_or_app. left. exact M. }
    apply filter_In in P as [_ P]. apply backup_prefix in P. now apply base_not_backup in P. }
  unfold save_dir, save_effects. change (FCreate tmp :: map (FAppend tmp) c) with (writes tmp c). destruct created.
  - eexists. split; [reflexivity|]. apply R. rewrite fs_run_app. cbn [fs_run fold_left fs_apply]. fold (fs_run d (writes tmp c)).
    rewrite writes_done, eqb_refl. apply mget_mset_eq.
  - destruct H as [H|H]; [discriminate|]. destruct (mget d base) as [old|] eqn:E; [|congruence]. eexists. split; [reflexivity|]. apply R.
    rewrite fs_run_app. cbn [fs_run fold_left fs_apply]. fold (fs_run d (writes tmp c)).
    rewrite (writes_done d tmp c base). destruct (eqb_spec base tmp) as [X|_]; [congruence|]. rewrite E.
    rewrite mget_mset_ne by auto. rewrite mget_mdel. destruct (eqb_spec tmp base) as [X|_]; [congruence|].
    rewrite writes_done, eqb_refl. apply mget_mset_eq.
Qed.

(** C87: with room for the whole file, the database is read back as it was. *)
Theorem C87_room : forall room d base tmp stamp created depth t order, ready d base tmp created -> fit t -> iterates t order ->
  (length (render order) <= room)%nat ->
  exists es t', save_on room d base tmp stamp created depth order = (es, true) /\ ini_open (fs_run d es) base false = OpenOk t' /\ same_db t t'.
Proof.
  intros room d base tmp stamp created depth t order Rd (M & C & U) It Le. unfold save_on.
  destruct (saved d base tmp stamp created depth (takes room (save_writes order)) Rd) as (es & -> & E).
  rewrite takes_concat, save_writes_concat, firstn_all2 in E by exact Le. destruct (save_reopen t order M C U It) as (t' & P & S).
  exists es, t'. split; [reflexivity|]. split; [|exact S]. unfold ini_open. now rewrite E, P.
Qed.
Print Assumptions C87_room.

(** C87: with less room Save reports success all the same.  The file then either cannot be opened,
    or has the first tables and records, all those whose lines were written whole, and perhaps
    the next record with its value cut short: nothing in it was never stored. *)
Theorem C87_less : forall room d base tmp stamp created depth t order, ready d base tmp created -> fit t -> iterates t order ->
  exists es, save_on room d base tmp stamp created depth order = (es, true) /\
    match ini_open (fs_run d es) base false with
    | OpenOk t' =>
        (exists left, cut_tables order left /\ (forall n k, lookup t' n k = lookup left n k) /\ whole_lines_in (firstn room (render order)) (render left)) /\
        (forall n k v', lookup t' n k = Some v' -> exists v, lookup t n k = Some v /\ prefix_of v' v)
    | OpenCreated => False
    | OpenError => (room < length (render order))%nat
    end.
Proof.
  intros room d base tmp stamp created depth t order Rd (M & C & U) It. unfold save_on.
  destruct (saved d base tmp stamp created depth (takes room (save_writes order)) Rd) as (es & -> & E).
  rewrite takes_concat, save_writes_concat in E. exists es. split; [reflexivity|]. unfold ini_open. rewrite E.
  destruct (iterates_same t order M It) as (Lk & Kk & Mo). assert (Co := iterates_clean t order C It).
  assert (Uo : unmixed order). { destruct U as [U|U]; [left; intros k; now rewrite <- Lk|right; intros n I; apply U; now apply Kk]. }
  destruct (parse (firstn room (render order))) as [t'|] eqn:P.
  - destruct (read_cut order (firstn room (render order)) (skipn room (render order)) Mo Co Uo (eq_sym (firstn_skipn _ _)) t' P) as (left & A & B & W).
    split; [now exists left|]. intros n k v' G. rewrite B in G. rewrite Lk. now apply (cut_lookup order left).
  - destruct (Nat.lt_ge_cases room (length (render order))) as [L|G]; [exact L|]. exfalso.
    rewrite firstn_all2 in P by exact G. destruct (save_reopen t order M C U It) as (t' & P' & _). congruence.
Qed.
Print Assumptions C87_less.

(** C87, finding: on a full disk any database is replaced by an empty one and Save returns nil. *)
Theorem C87_empty_refuted : forall d base tmp stamp created depth order, ready d base tmp created ->
  exists es t', save_on 0 d base tmp stamp created depth order = (es, true) /\ ini_open (fs_run d es) base false = OpenOk t' /\
    forall n k, lookup t' n k = None.
Proof.
  intros d base tmp stamp created depth order Rd. unfold save_on.
  destruct (saved d base tmp stamp created depth (takes 0 (save_writes order)) Rd) as (es & -> & E).
  rewrite takes_concat in E. exists es, [([], [])]. split; [reflexivity|]. split; [unfold ini_open; now rewrite E|].
  intros n k. unfold lookup. cbn [mget]. now destruct (eqb n []).
Qed.
Print Assumptions C87_empty_refuted.

(** C87, finding: each save moves the file it replaces to a backup and removes the oldest one, so after
    more saves than there are backups nothing that was stored is left anywhere. *)
Theorem C87_gone_refuted : forall base depth d old h, (0 <= depth)%Z -> NoDup (mkeys d) -> mget d base = Some old ->
  (forall n, is_backup base n -> mget d n = None) ->
  Forall (fun c => is_temp base (fst (fst c)) /\ valid_time (call_time c)) h ->
  StronglySorted (fun c c' => time_lt (call_time c) (call_time c')) h ->
  Forall (fun c => exists order, snd c = takes 0 (save_writes order)) h -> (Z.to_nat depth < length h)%nat ->
  exists d', save_all d base depth h = Some d' /\ mget d' base = Some [] /\
    forall n c, is_backup base n -> mget d' n = Some c -> c = [].
Proof.
  intros base depth d old h D ND E NB F S Full Le. destruct (C06_history base depth d old h D ND E NB F S) as (d' & A & B & C).
  assert (Z : forall h old, Forall (fun c : save_call => exists order, snd c = takes 0 (save_writes order)) h -> h <> [] -> last_saved old h = []).
  { clear. induction h as [|[[tmp t] ch] h IH]; intros old F NE; [congruence|]. inversion F as [|? ? [order Eo] F']; subst. cbn [snd] in Eo. cbn [last_saved].
    destruct h as [|c h]; [cbn; now rewrite Eo, takes_concat|]. apply IH; [exact F'|discriminate]. }
  exists d'. split; [exact A|]. split; [rewrite B; f_equal; apply Z; [exact Full|intros ->; cbn in Le; lia]|].
  intros n c Bk G. rewrite (C n Bk) in G. apply mget_In in G. clear - Full Le G. destruct h as [|[[tmp t] ch] h]; [cbn in Le; lia|].
  cbn [backups_made] in G. unfold lastn in G. assert (Ln : forall h old, length (backups_made base old h) = length h) by (induction h0 as [|[[? ?] ?] h0 IH]; intros o; cbn; [reflexivity|f_equal; apply IH]).
  assert (Em : exists m, (length ((base ++ [DOT] ++ stamp_of t, old) :: backups_made base (concat ch) h) - Z.to_nat depth = S m)%nat).
  { cbn [length] in *. rewrite Ln. unfold save_call in *. exists (length h - Z.to_nat depth)%nat. lia. }
  destruct Em as [m Em]. rewrite Em in G. cbn [skipn] in G.
  assert (G' : In (n, c) (backups_made base (concat ch) h)). { rewrite <- (firstn_skipn m (backups_made base (concat ch) h)). apply in_or_app. now right. }
  inversion Full as [|? ? [order Eo] F']; subst. cbn [snd] in Eo. rewrite Eo, takes_concat in G'. change (firstn 0 (concat (save_writes order))) with (@nil N) in G'.
  clear - F' G'. induction h as [|[[tmp t] ch] h IH]; [destruct G'|]. inversion F' as [|? ? [order Eo] F'']; subst. cbn [backups_made] in G'. destruct G' as [G'|G']; [injection G' as _ <-; reflexivity|].
  cbn [snd] in Eo. rewrite Eo, takes_concat in G'. change (firstn 0 (concat (save_writes order))) with (@nil N) in G'. now apply IH.
Qed.
Print Assumptions C87_gone_refuted.

(** A disk with room for part of a record. *)
Definition ex_t : tables := [([], []); (bs "users", [(bs "alice", bs "key one"); (bs "bob", bs "key two")])].
Example C87_case : let d := [(bs "db", bs "old")] in
  ready d (bs "db") (bs "db7") false /\ fit ex_t /\ iterates ex_t ex_t /\
  map (fun room => ini_open (fs_run d (fst (save_on room d (bs "db") (bs "db7") (bs "s") false 10 ex_t))) (bs "db") false) [47; 51; 56; 64; 67; 72; 90]%nat =
  [OpenError; OpenOk [(bs "users", []); ([], [])]; OpenError; OpenOk [(bs "users", [(bs "alice", bs "key")]); ([], [])];
   OpenOk [(bs "users", [(bs "alice", bs "key one")]); ([], [])]; OpenError;
   OpenOk [(bs "users", [(bs "alice", bs "key one"); (bs "bob", bs "key two")]); ([], [])]].
Proof.
  cbn zeta. split; [split; [exists 55, []; split; [reflexivity|lia]|right; discriminate]|]. split.
  - split; [split; repeat constructor; cbn; intuition discriminate|]. split; [|left; intros k; reflexivity].
    repeat constructor; cbn; try (intuition discriminate); intros H; repeat (destruct H as [H|H]; [discriminate|]); exact H.
  - split; [apply iterates_self|]. vm_compute. reflexivity.
Qed.
