(** Save/reopen round trip of the ini database. *)
From Verif Require Import Base IniModel IniMemProofs.

(** * Specification *)

(** Contents as seen through Get and Tables. *)
Definition lookup (t : tables) (name k : bytes) : option bytes :=
  match mget t name with Some s => mget s k | None => None end.

Definition same_db (t1 t2 : tables) : Prop :=
  (forall n k, lookup t1 n k = lookup t2 n k) /\
  (forall n, n <> [] -> (In n (mkeys t1) <-> In n (mkeys t2))).

(** [order] is one of the ways Go may iterate over the maps of [t]. *)
Definition iterates (t order : tables) : Prop :=
  exists mid, Permutation t mid /\
    Forall2 (fun a b => fst a = fst b /\ Permutation (snd a) (snd b)) mid order.

(** Go maps have distinct keys. *)
Definition is_map (t : tables) : Prop :=
  NoDup (mkeys t) /\ Forall (fun tv => NoDup (mkeys (snd tv))) t.

(** Texts that stay clear of the ini syntax: no newline, no white space at
    either end; keys are not empty, have no '=' and do not start like a comment;
    table names have no '='. *)
Definition clean (s : bytes) : Prop :=
  ~ In LF s /\
  match s with
  | [] => True
  | c :: _ => is_space c = false /\ is_space (last s 0%N) = false
  end.
Definition clean_key (k : bytes) : Prop :=
  clean k /\ ~ In EQ k /\
  match k with [] => False | c :: _ => c <> SEMI /\ c <> HASH end.
Definition clean_name (n : bytes) : Prop := clean n /\ ~ In EQ n.
Definition clean_db (t : tables) : Prop :=
  Forall (fun tv => clean_name (fst tv) /\
            Forall (fun kv => clean_key (fst kv) /\ clean (snd kv)) (snd tv)) t.

(** The unnamed table has no records, or it is the only table. *)
Definition unmixed (t : tables) : Prop :=
  (forall k, lookup t [] k = None) \/ (forall n, In n (mkeys t) -> n = []).

(** * Trimming and lines *)

Lemma trim_left_id s : match s with [] => True | c :: _ => is_space c = false end ->
  trim_left s = s.
Proof. destruct s as [|c r]; simpl; auto. now intros ->. Qed.

Lemma last_rev_hd s (c : N) r : rev s = c :: r -> last s 0%N = c.
Proof.
  intros E. rewrite <- (rev_involutive s), E. simpl. apply last_last.
Qed.

Lemma trim_id s : match s with
  | [] => True
  | c :: _ => is_space c = false /\ is_space (last s 0%N) = false end -> trim s = s.
Proof.
  intros H. unfold trim. rewrite (trim_left_id s).
  - rewrite trim_left_id; [apply rev_involutive|].
    destruct (rev s) as [|c r] eqn:E; auto.
    destruct s as [|c0 r0]; [discriminate E|].
    rewrite <- (last_rev_hd _ _ _ E). tauto.
  - destruct s; tauto.
Qed.

Lemma trim_clean s : clean s -> trim s = s.
Proof. intros [_ H]. now apply trim_id. Qed.

Lemma last_app_ne {A} (l m : list A) d : m <> [] -> last (l ++ m) d = last m d.
Proof.
  intros Hm. induction l as [|a l IH]; simpl; auto.
  destruct (l ++ m) eqn:E; [|auto].
  destruct l; simpl in E; [congruence|discriminate].
Qed.

Lemma trim_snoc_space s : clean s -> s <> [] -> trim (s ++ [SP]) = s.
Proof.
  intros [_ H] Hne. unfold trim.
  rewrite (trim_left_id (s ++ [SP])) by (destruct s; simpl; tauto).
  rewrite rev_app_distr. cbn [rev app trim_left].
  replace (is_space SP) with true by reflexivity.
  rewrite trim_left_id; [apply rev_involutive|].
  destruct (rev s) as [|d m] eqn:E; auto.
  rewrite <- (last_rev_hd _ _ _ E). destruct s; tauto.
Qed.

Lemma trim_cons_space s : clean s -> trim (SP :: s) = s.
Proof.
  intros H. unfold trim. cbn [trim_left].
  replace (is_space SP) with true by reflexivity.
  change (rev (trim_left (rev (trim_left s)))) with (trim s). now apply trim_clean.
Qed.

Lemma lines_app l r : ~ In LF l -> lines (l ++ LF :: r) = l :: lines r.
Proof.
  induction l as [|c l IH]; intros Hn.
  - reflexivity.
  - cbn [app lines]. destruct (N.eqb_spec c LF) as [->|]; [exfalso; apply Hn; simpl; auto|].
    rewrite IH; [reflexivity|]. intros Hi; apply Hn; simpl; auto.
Qed.

(** * Lines of a record and of a header *)

Lemma split_eq_app a b : ~ In EQ a -> split_eq (a ++ EQ :: b) = Some (a, b).
Proof.
  induction a as [|c a IH]; intros Hn; [reflexivity|].
  cbn [app split_eq]. destruct (N.eqb_spec c EQ) as [->|]; [exfalso; apply Hn; simpl; auto|].
  rewrite IH; [reflexivity|]. intros Hi; apply Hn; simpl; auto.
Qed.

Lemma split_eq_none a : ~ In EQ a -> split_eq a = None.
Proof.
  induction a as [|c a IH]; intros Hn; [reflexivity|].
  cbn [split_eq]. destruct (N.eqb_spec c EQ) as [->|]; [exfalso; apply Hn; simpl; auto|].
  rewrite IH; [reflexivity|]. intros Hi; apply Hn; simpl; auto.
Qed.

Definition put (f : tables) (cur k v : bytes) : tables :=
  match mget f cur with
  | Some s => mset f cur (mset s k v)
  | None => mset (mset f cur []) cur [(k, v)]
  end.

Lemma parse_record cur f k v :
  clean_key k -> clean v ->
  parse_line (cur, f) (k ++ [SP; EQ; SP] ++ v) = Some (cur, put f cur k v).
Proof.
  intros (Hk & Hne & Hc) Hv. unfold parse_line.
  destruct k as [|c k]; [tauto|]. destruct Hc as [Hc1 Hc2].
  assert (Hkne : c :: k <> []) by discriminate.
  set (K := c :: k) in *.
  assert (Et : exists w, trim (K ++ [SP; EQ; SP] ++ v) = K ++ [SP; EQ] ++ w /\ trim w = v).
  { destruct v as [|x v].
    - exists []. split; [|reflexivity].
      replace (K ++ [SP; EQ; SP] ++ []) with ((K ++ [SP; EQ]) ++ [SP]).
      2:{ rewrite <- app_assoc. reflexivity. }
      rewrite app_nil_r. apply trim_snoc_space; [|destruct K; discriminate].
      split.
      + intros Hi. apply in_app_or in Hi. destruct Hi as [Hi|Hi].
        * destruct Hk as [Hk _]; auto.
        * simpl in Hi. unfold SP, EQ, LF in Hi. destruct Hi as [Hi|[Hi|[]]]; discriminate.
      + unfold K at 1. simpl app. destruct Hk as [_ [Hk1 _]]. split; auto.
        change (c :: k ++ [SP; EQ]) with (K ++ [SP; EQ]).
        rewrite last_app_ne by discriminate. reflexivity.
    - exists (SP :: x :: v). split; [|now apply trim_cons_space].
      rewrite trim_id; [reflexivity|]. unfold K at 1. simpl app.
      destruct Hk as [_ [Hk1 _]]. split; auto.
      change (c :: k ++ SP :: EQ :: SP :: x :: v) with (K ++ [SP; EQ; SP] ++ x :: v).
      rewrite app_assoc, last_app_ne by discriminate.
      destruct Hv as [_ [_ Hv]]. exact Hv. }
  destruct Et as (w & Et & Ew). rewrite Et.
  unfold K at 1. cbn [app].
  destruct (N.eqb_spec c SEMI); [congruence|].
  destruct (N.eqb_spec c HASH); [congruence|]. cbn [orb].
  unfold match_assign.
  replace (K ++ SP :: EQ :: w) with ((K ++ [SP]) ++ EQ :: w) by (rewrite <- app_assoc; reflexivity).
  rewrite split_eq_app.
  2:{ intros Hi. apply in_app_or in Hi. destruct Hi as [Hi|Hi]; [auto|].
      simpl in Hi. unfold SP, EQ in Hi. destruct Hi as [Hi|[]]; discriminate. }
  unfold K at 1. cbn [app].
  change (c :: k ++ [SP]) with (K ++ [SP]).
  rewrite Ew, trim_snoc_space by auto.
  unfold put, ensure. destruct (mget f cur) as [s|] eqn:Ef.
  - now rewrite Ef.
  - rewrite mget_mset_eq. reflexivity.
Qed.

Lemma parse_header cur f n :
  clean_name n -> n <> [] ->
  parse_line (cur, f) ([LBR] ++ n ++ [RBR]) = Some (n, ensure f n).
Proof.
  intros (Hn & He) Hne. unfold parse_line.
  rewrite trim_id.
  2:{ cbn [app]. split; [reflexivity|].
      rewrite app_comm_cons, last_app_ne by discriminate. reflexivity. }
  cbn [app]. unfold match_assign.
  rewrite split_eq_none.
  2:{ intros [Hi|Hi]; [discriminate|]. apply in_app_or in Hi.
      destruct Hi as [Hi|[Hi|[]]]; [auto|discriminate]. }
  change ((LBR =? SEMI)%N || (LBR =? HASH)%N) with false. cbv iota.
  unfold match_section. rewrite N.eqb_refl.
  rewrite rev_app_distr. cbn [rev app]. rewrite N.eqb_refl, rev_involutive.
  rewrite trim_clean by auto. reflexivity.
Qed.

Lemma parse_blank st : parse_line st [] = Some st.
Proof. destruct st. reflexivity. Qed.

(** * Whole tables *)

(** Parsing text followed by the rest of the file. *)
Lemma parse_lines_cons st l r :
  ~ In LF l ->
  parse_lines st (lines (l ++ LF :: r)) =
  match parse_line st l with Some st' => parse_lines st' (lines r) | None => None end.
Proof. intros Hn. now rewrite lines_app. Qed.

Lemma no_lf_record k v : clean_key k -> clean v -> ~ In LF (k ++ [SP; EQ; SP] ++ v).
Proof.
  intros ((Hk & _) & _) (Hv & _) Hi.
  apply in_app_or in Hi. destruct Hi as [Hi|Hi]; auto.
  apply in_app_or in Hi. destruct Hi as [Hi|Hi]; auto.
  simpl in Hi. unfold SP, EQ, LF in Hi. intuition discriminate.
Qed.

Definition put_all (f : tables) (cur : bytes) (rs : section) : tables :=
  fold_left (fun f kv => put f cur (fst kv) (snd kv)) rs f.

Lemma parse_records rs : forall cur f r,
  Forall (fun kv => clean_key (fst kv) /\ clean (snd kv)) rs ->
  parse_lines (cur, f) (lines (concat (map render_record rs) ++ r)) =
  parse_lines (cur, put_all f cur rs) (lines r).
Proof.
  induction rs as [|[k v] rs IH]; intros cur f r Hc; [reflexivity|].
  inversion Hc as [|? ? [Hk Hv] Hc']; subst.
  cbn [map concat]. unfold render_record at 1. cbn [fst snd].
  simpl fst in *; simpl snd in *.
  replace (((k ++ [SP; EQ; SP] ++ v ++ [LF]) ++ concat (map render_record rs)) ++ r)
    with ((k ++ [SP; EQ; SP] ++ v) ++ LF :: (concat (map render_record rs) ++ r))
    by (rewrite <- !app_assoc; reflexivity).
  rewrite parse_lines_cons by (now apply no_lf_record).
  rewrite parse_record by auto. rewrite IH by auto. reflexivity.
Qed.

Definition step_table (st : bytes * tables) (tv : bytes * section) : bytes * tables :=
  let (cur, f) := st in
  match fst tv with
  | [] => (cur, put_all f cur (snd tv))
  | n => (n, put_all (ensure f n) n (snd tv))
  end.

Definition clean_table (tv : bytes * section) : Prop :=
  clean_name (fst tv) /\ Forall (fun kv => clean_key (fst kv) /\ clean (snd kv)) (snd tv).

Lemma parse_table tv st r :
  clean_table tv ->
  parse_lines st (lines (render_table tv ++ r)) = parse_lines (step_table st tv) (lines r).
Proof.
  destruct tv as [n rs], st as [cur f]. intros [Hn Hrs]. simpl in Hn, Hrs.
  unfold render_table. cbn [fst snd].
  destruct n as [|c n].
  - rewrite app_nil_l, <- app_assoc. rewrite parse_records by auto.
    change ([LF] ++ r) with ([] ++ LF :: r). rewrite parse_lines_cons by (simpl; tauto).
    rewrite parse_blank. reflexivity.
  - rewrite <- !app_assoc.
    replace ([LBR] ++ (c :: n) ++ [RBR; LF] ++ concat (map render_record rs) ++ [LF] ++ r)
      with (([LBR] ++ (c :: n) ++ [RBR]) ++ LF :: (concat (map render_record rs) ++ [LF] ++ r))
      by (rewrite <- !app_assoc; reflexivity).
    rewrite parse_lines_cons.
    2:{ destruct Hn as [[Hn _] _]. intros Hi. apply in_app_or in Hi.
        destruct Hi as [[Hi|[]]|Hi]; [discriminate|].
        apply in_app_or in Hi. destruct Hi as [Hi|[Hi|[]]]; [auto|discriminate]. }
    rewrite parse_header by (auto; discriminate).
    rewrite parse_records by auto.
    change ([LF] ++ r) with ([] ++ LF :: r). rewrite parse_lines_cons by (simpl; tauto).
    rewrite parse_blank. reflexivity.
Qed.

Lemma parse_tables order : forall st r,
  Forall clean_table order ->
  parse_lines st (lines (concat (map render_table order) ++ r)) =
  parse_lines (fold_left step_table order st) (lines r).
Proof.
  induction order as [|tv order IH]; intros st r Hc; [reflexivity|].
  inversion Hc; subst. cbn [map concat fold_left].
  rewrite <- app_assoc. rewrite parse_table by auto. now apply IH.
Qed.

Lemma parse_render order :
  Forall clean_table order ->
  parse (render order) = Some (ensure (snd (fold_left step_table order ([], []))) []).
Proof.
  intros Hc. unfold parse, render.
  replace (auto ++ [LF] ++ concat (map render_table order))
    with (auto ++ LF :: (concat (map render_table order) ++ []))
    by (rewrite app_nil_r; reflexivity).
  rewrite parse_lines_cons.
  2:{ unfold auto, LF. simpl. intros Hi.
      repeat (destruct Hi as [Hi|Hi]; [discriminate|]). exact Hi. }
  change (parse_line ([], []) auto) with (Some ([] : bytes, [] : tables)).
  cbv beta iota. rewrite parse_tables by auto.
  cbn [lines parse_lines]. rewrite parse_blank.
  destruct (fold_left step_table order _) as [cur f]. reflexivity.
Qed.

(** * Effect of the tables on the parsed file *)

Lemma mset_fresh {K V} `{EqB K} (m : list (K * V)) k v :
  ~ In k (mkeys m) -> mset m k v = m ++ [(k, v)].
Proof.
  unfold mkeys. induction m as [|[k' v'] m IH]; simpl; intros Hn; auto.
  destruct (eqb_spec k k') as [->|]; [exfalso; auto|].
  f_equal. apply IH. auto.
Qed.

Lemma mset_last {K V} `{EqB K} (m : list (K * V)) k v v' :
  ~ In k (mkeys m) -> mset (m ++ [(k, v)]) k v' = m ++ [(k, v')].
Proof.
  unfold mkeys. induction m as [|[k0 v0] m IH]; simpl; intros Hn.
  - now rewrite eqb_refl.
  - destruct (eqb_spec k k0) as [->|]; [exfalso; auto|].
    f_equal. apply IH. auto.
Qed.

Lemma mget_last {K V} `{EqB K} (m : list (K * V)) k v :
  ~ In k (mkeys m) -> mget (m ++ [(k, v)]) k = Some v.
Proof.
  unfold mkeys. induction m as [|[k0 v0] m IH]; simpl; intros Hn.
  - now rewrite eqb_refl.
  - destruct (eqb_spec k k0) as [->|]; [exfalso; auto|]. apply IH; auto.
Qed.

Lemma put_all_last (rs : section) : forall (f : tables) (n : bytes) (s : section),
  ~ In n (mkeys f) -> NoDup (mkeys (s ++ rs)) ->
  put_all (f ++ [(n, s)]) n rs = f ++ [(n, s ++ rs)].
Proof.
  induction rs as [|[k v] rs IH]; intros f n s Hn ND.
  - unfold put_all; simpl. now rewrite app_nil_r.
  - unfold put_all in *. cbn [fold_left fst snd]. unfold put at 2.
    rewrite mget_last by auto. rewrite mset_last by auto.
    rewrite mset_fresh.
    + rewrite IH; auto.
      * now rewrite <- app_assoc.
      * now rewrite <- app_assoc.
    + unfold mkeys in *. rewrite map_app in ND. simpl in ND.
      apply NoDup_remove in ND. intros Hi. apply ND. apply in_or_app; auto.
Qed.

Lemma put_all_nil (rs : section) : NoDup (mkeys rs) -> rs <> [] ->
  put_all [] [] rs = [([], rs)].
Proof.
  intros ND Hne. destruct rs as [|[k v] rs]; [congruence|].
  unfold put_all. cbn [fold_left fst snd].
  replace (put [] [] k v) with ([] ++ [(([] : bytes), [(k, v)])]) by reflexivity.
  change (put_all ([] ++ [([], [(k, v)])]) [] rs = [([], (k, v) :: rs)]).
  rewrite put_all_last; auto.
Qed.

Definition named (tv : bytes * section) : bool :=
  match fst tv with [] => false | _ => true end.

Lemma fold_named (order : tables) : forall (cur : bytes) (f : tables),
  NoDup (mkeys order) ->
  Forall (fun tv => NoDup (mkeys (snd tv))) order ->
  (forall n : bytes, In n (mkeys order) -> ~ In n (mkeys f)) ->
  (forall rs : section, In (([] : bytes), rs) order -> rs = []) ->
  snd (fold_left step_table order (cur, f)) = f ++ filter named order.
Proof.
  induction order as [|[n rs] order IH]; intros cur f ND Hr Hd He; simpl.
  - now rewrite app_nil_r.
  - inversion ND as [|? ? Hni ND']; subst. inversion Hr as [|? ? Hrs Hr']; subst.
    simpl in Hrs. destruct n as [|c n]; simpl.
    + rewrite (He rs) by (simpl; auto). simpl. rewrite IH; auto.
      * intros m Hm. apply Hd. simpl; auto.
      * intros rs' Hi. apply He. simpl; auto.
    + assert (Hf : ~ In (c :: n) (mkeys f)) by (apply Hd; simpl; auto).
      unfold ensure. assert (E : mget f (c :: n) = None) by (now apply mget_None).
      rewrite E. rewrite mset_fresh by auto. rewrite put_all_last by auto.
      rewrite IH; auto.
      * rewrite <- app_assoc. reflexivity.
      * intros m Hm. unfold mkeys. rewrite map_app. intros Hi. apply in_app_or in Hi.
        destruct Hi as [Hi|[Hi|[]]].
        -- apply (Hd m); simpl; auto.
        -- simpl in Hi. subst m. auto.
      * intros rs' Hi. apply He. simpl; auto.
Qed.

(** * Equivalence of iteration orders *)

Lemma Permutation_mget {K V} `{EqB K} (m m' : list (K * V)) k :
  NoDup (mkeys m) -> Permutation m m' -> mget m k = mget m' k.
Proof.
  intros ND P. assert (ND' : NoDup (mkeys m')).
  { eapply Permutation_NoDup; [|exact ND]. now apply Permutation_map. }
  destruct (mget m k) as [v|] eqn:E.
  - symmetry. apply In_mget; auto. apply (Permutation_in _ P). now apply mget_In.
  - symmetry. apply mget_None. apply mget_None in E. intros Hi. apply E.
    apply (Permutation_in k (Permutation_map fst (Permutation_sym P))). exact Hi.
Qed.

Lemma Forall2_keys (mid order : tables) :
  Forall2 (fun a b => fst a = fst b /\ Permutation (snd a) (snd b)) mid order ->
  mkeys mid = mkeys order.
Proof.
  unfold mkeys. induction 1 as [|a b mid order [E _] _ IH]; simpl; [reflexivity|f_equal; auto].
Qed.

Lemma Forall2_lookup (mid order : tables) n k :
  Forall2 (fun a b => fst a = fst b /\ Permutation (snd a) (snd b)) mid order ->
  Forall (fun tv => NoDup (mkeys (snd tv))) mid ->
  lookup mid n k = lookup order n k.
Proof.
  unfold lookup. induction 1 as [|[a s] [b s'] mid order [E P] _ IH]; intros HF; simpl; auto.
  simpl in E, P. subst b. inversion HF as [|? ? Hs HF']; subst. simpl in Hs.
  destruct (eqb n a); auto. now apply Permutation_mget.
Qed.

Lemma iterates_same t order : is_map t -> iterates t order ->
  (forall n k, lookup t n k = lookup order n k) /\
  (forall n, In n (mkeys t) <-> In n (mkeys order)) /\ is_map order.
Proof.
  intros [ND HF] (mid & P & F2).
  assert (HFm : Forall (fun tv => NoDup (mkeys (snd tv))) mid).
  { eapply Permutation_Forall; eauto. }
  assert (NDm : NoDup (mkeys mid)).
  { eapply Permutation_NoDup; [|exact ND]. now apply Permutation_map. }
  split; [|split; [|split]].
  - intros n k. rewrite <- (Forall2_lookup mid order n k F2 HFm).
    unfold lookup. now rewrite (Permutation_mget t mid n ND P).
  - intros n. rewrite <- (Forall2_keys _ _ F2). split; intros Hi.
    + apply (Permutation_in n (Permutation_map fst P)). exact Hi.
    + apply (Permutation_in n (Permutation_map fst (Permutation_sym P))). exact Hi.
  - now rewrite <- (Forall2_keys _ _ F2).
  - clear -F2 HFm. induction F2 as [|a b mid order [E P] F2 IH]; constructor;
      inversion HFm; subst; auto.
    eapply Permutation_NoDup; [|eassumption]. now apply Permutation_map.
Qed.

Lemma iterates_clean t order : clean_db t -> iterates t order -> Forall clean_table order.
Proof.
  intros HC (mid & P & F2).
  assert (HCm : Forall clean_table mid) by (eapply Permutation_Forall; eauto).
  clear -F2 HCm. induction F2 as [|[n rs] [n' rs'] mid order [E Pm] F2 IH]; constructor;
    inversion HCm as [|? ? [Hn Hr] HC']; subst; auto.
  simpl in *. subst n'. split; auto. simpl. eapply Permutation_Forall; eauto.
Qed.

Lemma mkeys_filter_named (order : tables) n :
  n <> [] -> (In n (mkeys (filter named order)) <-> In n (mkeys order)).
Proof.
  intros Hn. unfold mkeys. rewrite !in_map_iff. split.
  - intros [[m s] [E Hi]]. apply filter_In in Hi. exists (m, s). tauto.
  - intros [[m s] [E Hi]]. exists (m, s). split; auto. apply filter_In. split; auto.
    simpl in E. subst m. unfold named. simpl. destruct n; congruence.
Qed.

Lemma mget_filter_named (order : tables) n :
  n <> [] -> mget (filter named order) n = mget order n.
Proof.
  intros Hn. induction order as [|[m s] order IH]; simpl; auto.
  destruct m as [|c m]; simpl.
  - destruct (eqb_spec n []); [congruence|auto].
  - rewrite IH. reflexivity.
Qed.

Lemma mget_filter_named_nil (order : tables) : mget (filter named order) [] = None.
Proof.
  apply mget_None. unfold mkeys. rewrite in_map_iff. intros [[m s] [E Hi]].
  apply filter_In in Hi. simpl in E. subst m. destruct Hi as [_ Hi]. discriminate.
Qed.

Lemma NoDup_single_nil (t : tables) :
  NoDup (mkeys t) -> (forall n, In n (mkeys t) -> n = []) -> t = [] \/ exists s, t = [([], s)].
Proof.
  intros ND Ha. destruct t as [|[n s] t]; auto. right.
  assert (n = []) by (apply Ha; simpl; auto). subst n.
  destruct t as [|[m s'] t]; [eauto|].
  assert (m = []) by (apply Ha; simpl; auto). subst m.
  exfalso. inversion ND as [|? ? Hni _]; subst. apply Hni. simpl; auto.
Qed.

(** Sufficient direction. *)
Lemma save_reopen t order :
  is_map t -> clean_db t -> unmixed t -> iterates t order ->
  exists t', parse (render order) = Some t' /\ same_db t t'.
Proof.
  intros Hm Hc Hu Hi.
  pose proof (iterates_clean _ _ Hc Hi) as Hco.
  destruct (iterates_same _ _ Hm Hi) as (HL & HK & [NDo HFo]).
  rewrite (parse_render order Hco). eexists; split; [reflexivity|].
  destruct Hu as [Hu|Hu].
  - (* the unnamed table is empty *)
    assert (Hempty : forall rs, In ([], rs) order -> rs = []).
    { intros rs Hin. destruct rs as [|[k v] rs]; auto. exfalso.
      assert (E : lookup order [] k = Some v).
      { unfold lookup. rewrite (In_mget order [] ((k, v) :: rs)) by auto.
        simpl. now rewrite eqb_refl. }
      rewrite <- HL, Hu in E. discriminate. }
    rewrite fold_named by (simpl; auto). simpl.
    unfold ensure. rewrite mget_filter_named_nil.
    rewrite mset_fresh by (apply mget_None; apply mget_filter_named_nil).
    split.
    + intros n k. destruct (EqB_dec n []) as [->|Hn].
      * rewrite Hu. unfold lookup. rewrite mget_last by (apply mget_None; apply mget_filter_named_nil).
        reflexivity.
      * rewrite HL. unfold lookup. rewrite <- (mget_filter_named order n Hn).
        clear -Hn. induction (filter named order) as [|[m s] l IH]; simpl.
        -- destruct (eqb_spec n []); [congruence|auto].
        -- destruct (eqb n m); auto.
    + intros n Hn. rewrite HK. unfold mkeys. rewrite map_app, in_app_iff. simpl.
      rewrite <- (mkeys_filter_named order n Hn). unfold mkeys. intuition congruence.
  - (* the unnamed table is the only one *)
    assert (Hu' : forall n, In n (mkeys order) -> n = []).
    { intros n Hin. apply Hu. now apply HK. }
    destruct (NoDup_single_nil order NDo Hu') as [->|[s ->]].
    + simpl. split.
      * intros n k. rewrite HL. unfold lookup. simpl. destruct (eqb n []); auto.
      * intros n Hn. rewrite HK. simpl. intuition congruence.
    + cbn [fold_left step_table fst snd]. inversion HFo as [|? ? Hs _]; subst. simpl in Hs.
      destruct s as [|kv s].
      * simpl. split.
        -- intros n k. rewrite HL. reflexivity.
        -- intros n Hn. rewrite HK. simpl. tauto.
      * rewrite put_all_nil by (auto; discriminate).
        split.
        -- intros n k. rewrite HL. reflexivity.
        -- intros n Hn. rewrite HK. simpl. tauto.
Qed.

Lemma Permutation_two {A} (l : list A) (a b : A) :
  In a l -> In b l -> a <> b -> exists r, Permutation l (a :: b :: r).
Proof.
  intros Ha Hb Hne. destruct (in_split _ _ Ha) as (l1 & l2 & ->).
  assert (Hb' : In b (l1 ++ l2)).
  { apply in_app_or in Hb. apply in_or_app. destruct Hb as [Hb|[Hb|Hb]]; auto. congruence. }
  destruct (in_split _ _ Hb') as (m1 & m2 & E).
  exists (m1 ++ m2). rewrite <- Permutation_middle, E.
  apply perm_skip. symmetry. apply Permutation_middle.
Qed.

Lemma put_all_same_keys rs : forall f n, In n (mkeys f) ->
  mkeys (put_all f n rs) = mkeys f.
Proof.
  induction rs as [|[k v] rs IH]; intros f n Hi; [reflexivity|].
  unfold put_all in *. cbn [fold_left fst snd].
  assert (E : mkeys (put f n k v) = mkeys f).
  { unfold put. destruct (mget f n) as [s|] eqn:Eg.
    - rewrite mkeys_mset. unfold mhas. now rewrite Eg.
    - apply mget_None in Eg. tauto. }
  rewrite IH; rewrite E; auto.
Qed.

(** Necessary direction: a mixed database has an iteration order after which a
    record of the unnamed table is lost (it reappears under another table). *)
Lemma mixed_loses t :
  is_map t -> clean_db t -> ~ unmixed t ->
  exists order t' k v, iterates t order /\ parse (render order) = Some t' /\
    lookup t [] k = Some v /\ lookup t' [] k = None.
Proof.
  intros Hm Hc Hnu. destruct Hm as [ND HF].
  (* a record of the unnamed table *)
  assert (H1 : exists rs, mget t [] = Some rs /\ rs <> []).
  { destruct (mget t []) as [rs|] eqn:E.
    - exists rs. split; auto. intros ->. apply Hnu. left. intros k. unfold lookup. now rewrite E.
    - exfalso. apply Hnu. left. intros k. unfold lookup. now rewrite E. }
  destruct H1 as (rs & E0 & Hrs).
  (* a named table *)
  assert (H2 : exists n s, In (n, s) t /\ n <> []).
  { destruct (existsb named t) eqn:Ex.
    - apply existsb_exists in Ex. destruct Ex as [[n s] [Hin Hn]]. exists n, s.
      split; auto. unfold named in Hn; simpl in Hn. destruct n; congruence.
    - exfalso. apply Hnu. right. intros n Hin. unfold mkeys in Hin. apply in_map_iff in Hin.
      destruct Hin as [[m s] [E Hin]]. simpl in E; subst m.
      destruct n; auto. exfalso.
      assert (existsb named t = true).
      { apply existsb_exists. exists (n :: n0, s). auto. }
      congruence. }
  destruct H2 as (n & s & Hin & Hn).
  apply mget_In in E0 as Hin0.
  destruct (Permutation_two t (n, s) ([], rs)) as [rest P]; auto; [congruence|].
  exists ((n, s) :: ([], rs) :: rest).
  assert (Hit : iterates t ((n, s) :: ([], rs) :: rest)).
  { exists ((n, s) :: ([], rs) :: rest). split; auto.
    clear. induction ((n, s) :: ([], rs) :: rest); constructor; auto. }
  pose proof (iterates_clean _ _ Hc Hit) as Hco.
  destruct (iterates_same t _ (conj ND HF) Hit) as (HL & HK & [NDo HFo]).
  rewrite (parse_render _ Hco).
  destruct rs as [|[k v] rs]; [congruence|].
  eexists. exists k, v. split; [exact Hit|]. split; [reflexivity|]. split.
  { unfold lookup. rewrite E0. simpl. now rewrite eqb_refl. }
  inversion HFo as [|? ? Hs HFo']; subst. inversion HFo' as [|? ? Hs' HFo'']; subst.
  inversion NDo as [|? ? Hn1 NDo']; subst. inversion NDo' as [|? ? Hn2 NDo'']; subst.
  simpl in Hs, Hs', Hn1, Hn2.
  cbn [fold_left]. set (st0 := step_table _ ([], (k, v) :: rs)).
  assert (Est0 : exists f0, st0 = (n, f0) /\ mkeys f0 = [n]).
  { unfold st0, step_table. cbn [fst snd]. destruct n as [|c n]; [congruence|].
    eexists. split; [reflexivity|].
    rewrite put_all_same_keys; [|rewrite put_all_same_keys]; try rewrite put_all_same_keys; simpl; auto. }
  destruct Est0 as (f0 & -> & Hf0).
  rewrite fold_named; auto.
  - unfold ensure, lookup.
    assert (Eg : mget (f0 ++ filter named rest) [] = None).
    { apply mget_None. unfold mkeys in *. rewrite map_app, in_app_iff, Hf0. simpl.
      intros [[Hx|[]]|Hx]; [congruence|].
      pose proof (mget_filter_named_nil rest) as Hg. apply mget_None in Hg. auto. }
    rewrite Eg, mget_mset_eq. reflexivity.
  - intros m Hm Hm'. rewrite Hf0 in Hm'. destruct Hm' as [<-|[]]. apply Hn1. simpl; auto.
  - intros rs' Hin'. exfalso. apply Hn2. unfold mkeys. apply in_map_iff. exists ([], rs'); auto.
Qed.

(** Reopening always restores the data, for every iteration order, exactly when
    the unnamed table is not mixed with others. *)
Lemma save_reopen_iff t :
  is_map t -> clean_db t ->
  ((forall order, iterates t order ->
      exists t', parse (render order) = Some t' /\ same_db t t') <-> unmixed t).
Proof.
  intros Hm Hc. split.
  - intros H.
    destruct (existsb named t) eqn:En.
    + destruct (mget t []) as [[|kv rs]|] eqn:E0.
      * left. intros k. unfold lookup. now rewrite E0.
      * exfalso.
        destruct (mixed_loses t Hm Hc) as (order & t' & k & v & Hit & Hp & Hl & Hl').
        -- intros [Hu|Hu].
           ++ specialize (Hu (fst kv)). unfold lookup in Hu. rewrite E0 in Hu.
              destruct kv as [k v]. simpl in Hu. rewrite eqb_refl in Hu. discriminate.
           ++ apply existsb_exists in En. destruct En as [[n s] [Hin Hn]].
              assert (n = []) by (apply Hu; unfold mkeys; apply in_map_iff; exists (n, s); auto).
              subst n. discriminate.
        -- destruct (H order Hit) as (t2 & Hp2 & [HL _]). rewrite Hp in Hp2.
           injection Hp2 as <-. rewrite HL in Hl. congruence.
      * left. intros k. unfold lookup. now rewrite E0.
    + right. intros n Hin. unfold mkeys in Hin. apply in_map_iff in Hin.
      destruct Hin as [[m s] [E Hin]]. simpl in E; subst m.
      destruct n; auto. exfalso.
      assert (existsb named t = true).
      { apply existsb_exists. exists (n :: n0, s). auto. }
      congruence.
  - intros Hu order Hit. now apply save_reopen.
Qed.

(** * Files that cannot be opened *)

Lemma last_cons_ne {A} (x : A) l d : l <> [] -> last (x :: l) d = last l d.
Proof. destruct l; [congruence|reflexivity]. Qed.

(** A table name with a newline makes the file unreadable, wherever the table
    happens to be written. *)
Lemma newline_name_unopenable pre post a b rs :
  Forall clean_table pre -> clean a -> a <> [] -> ~ In EQ a -> last a 0%N <> RBR ->
  parse (render (pre ++ (a ++ LF :: b, rs) :: post)) = None.
Proof.
  intros Hp Ha Hne He Hl. unfold parse, render.
  replace (auto ++ [LF] ++ concat (map render_table (pre ++ (a ++ LF :: b, rs) :: post)))
    with (auto ++ LF :: (concat (map render_table pre) ++
            concat (map render_table ((a ++ LF :: b, rs) :: post))))
    by (rewrite map_app, concat_app; reflexivity).
  rewrite parse_lines_cons.
  2:{ unfold auto, LF. simpl. intros Hi.
      repeat (destruct Hi as [Hi|Hi]; [discriminate|]). exact Hi. }
  change (parse_line ([], []) auto) with (Some ([] : bytes, [] : tables)).
  cbv beta iota. rewrite parse_tables by auto.
  destruct (fold_left step_table pre ([], [])) as [cur f].
  cbn [map concat]. unfold render_table at 1. cbn [fst snd].
  destruct (a ++ LF :: b) as [|x0 l0] eqn:E0; [destruct a; discriminate|]. rewrite <- E0. clear E0 x0 l0.
  match goal with |- context [lines ?t] =>
    assert (Et : exists r, t = ([LBR] ++ a) ++ LF :: r) end.
  { eexists. rewrite <- !app_assoc. cbn [app]. reflexivity. }
  destruct Et as [r ->].
  rewrite parse_lines_cons.
  2:{ destruct Ha as [Ha _]. intros Hi. destruct Hi as [Hi|Hi]; [discriminate|auto]. }
  unfold parse_line. destruct Ha as [_ Ha]. destruct a as [|c a]; [congruence|].
  rewrite trim_id.
  2:{ cbn [app]. split; [reflexivity|]. rewrite last_cons_ne by discriminate. tauto. }
  cbn [app]. unfold match_assign.
  rewrite split_eq_none by (intros [Hi|Hi]; [discriminate|auto]).
  change ((LBR =? SEMI)%N || (LBR =? HASH)%N) with false. cbv iota.
  unfold match_section. rewrite N.eqb_refl.
  destruct (rev (c :: a)) as [|x m] eqn:Er; [reflexivity|].
  apply last_rev_hd in Er. destruct (N.eqb_spec x RBR); [congruence|reflexivity].
Qed.

(** * Histories of calls followed by save and reopen *)

Lemma wf_is_map t : wf_tables t <-> is_map t.
Proof.
  unfold wf_tables, is_map. split; intros [ND H]; split; auto.
  - rewrite Forall_forall. intros [n s] Hi. apply (H n). now apply In_mget.
  - intros n s E. apply mget_In in E. rewrite Forall_forall in H. apply (H _ E).
Qed.

Definition clean_op (o : ini_op) : Prop :=
  match o with
  | ISet t k v => clean_key k /\ clean v
  | INewTable t => clean_name t
  | _ => True
  end.

Lemma clean_db_mset t n s : clean_db t -> clean_table (n, s) -> clean_db (mset t n s).
Proof.
  unfold clean_db. intros HC Hn. induction t as [|[m r] t IH]; simpl.
  - constructor; auto.
  - inversion HC; subst. destruct (eqb_spec n m) as [->|]; constructor; auto.
Qed.
Lemma clean_section_mset (s : section) k v :
  Forall (fun kv => clean_key (fst kv) /\ clean (snd kv)) s -> clean_key k -> clean v ->
  Forall (fun kv => clean_key (fst kv) /\ clean (snd kv)) (mset s k v).
Proof.
  intros HC Hk Hv. induction s as [|[m r] s IH]; simpl.
  - constructor; auto.
  - inversion HC; subst. destruct (eqb_spec k m) as [->|]; constructor; auto.
Qed.
Lemma Forall_mdel {K V} `{EqB K} (P : K * V -> Prop) (m : list (K * V)) k :
  Forall P m -> Forall P (mdel m k).
Proof.
  intros HF. induction m as [|[a v] m IH]; simpl; auto.
  inversion HF; subst. destruct (eqb k a); simpl; auto.
Qed.

Lemma clean_after t0 c h : clean_db t0 -> Forall clean_op h ->
  clean_db (db_tables (ini_after (opened t0 c) h)).
Proof.
  intros H0. induction h as [|o h IH]; intros Hh; simpl; auto.
  inversion Hh as [|? ? Ho Hh']; subst. specialize (IH Hh').
  set (d := ini_after (opened t0 c) h) in *.
  destruct o as [t k v|t k|t|t|t k|t|]; simpl in *; auto.
  - unfold ini_set. destruct (mget (db_tables d) t) as [s|] eqn:E; simpl; auto.
    apply mget_In in E. unfold clean_db in IH. rewrite Forall_forall in IH.
    destruct (IH _ E) as [Hn Hs]. apply clean_db_mset.
    + now apply Forall_forall.
    + split; auto. apply clean_section_mset; tauto.
  - unfold ini_del. destruct (mget (db_tables d) t) as [s|] eqn:E; simpl; auto.
    apply mget_In in E. unfold clean_db in IH. rewrite Forall_forall in IH.
    destruct (IH _ E) as [Hn Hs]. apply clean_db_mset.
    + now apply Forall_forall.
    + split; auto. now apply Forall_mdel.
  - unfold ensure. destruct (mget (db_tables d) t); auto.
    apply clean_db_mset; auto. split; auto. constructor.
  - unfold ini_del_table. destruct (mget (db_tables d) t); simpl; auto. now apply Forall_mdel.
Qed.

Lemma lookup_after t0 c h n k : wf_tables t0 ->
  lookup (db_tables (ini_after (opened t0 c) h)) n k = last_value t0 h n k.
Proof.
  intros W. destruct (represents_after t0 c h W) as [_ R]. specialize (R n).
  unfold lookup. destruct (mget _ n) as [s|].
  - now destruct R as (_ & _ & R).
  - now destruct R as (_ & R).
Qed.

Lemma exists_after t0 c h n : wf_tables t0 ->
  In n (mkeys (db_tables (ini_after (opened t0 c) h))) <-> table_exists t0 h n = true.
Proof.
  intros W. destruct (represents_after t0 c h W) as [_ R]. specialize (R n).
  destruct (mget _ n) as [s|] eqn:E.
  - destruct R as [R _]. rewrite R. apply mget_Some_keys in E. tauto.
  - destruct R as [R _]. rewrite R. apply mget_None in E. split; [tauto|discriminate].
Qed.

Lemma wf_after t0 c h : wf_tables t0 -> wf_tables (db_tables (ini_after (opened t0 c) h)).
Proof.
  intros W. destruct (represents_after t0 c h W) as [ND R]. split; auto.
  intros n s E. specialize (R n). rewrite E in R. tauto.
Qed.

Lemma parse_line_wf st l st' : wf_tables (snd st) -> parse_line st l = Some st' -> wf_tables (snd st').
Proof.
  destruct st as [cur f]. intros W. unfold parse_line.
  destruct (trim l) as [|c r] eqn:El; [intros E; injection E as <-; auto|].
  assert (We : forall n, wf_tables (ensure f n)).
  { intros n. unfold ensure. destruct (mget f n) eqn:En; auto. destruct W as [ND W].
    split; [now apply NoDup_mset|]. intros m s. rewrite mget_mset.
    destruct (eqb m n); [|apply W]. intros E; injection E as <-. constructor. }
  destruct (_ || _); [intros E; injection E as <-; auto|].
  destruct (match_assign (c :: r)) as [[k v]|].
  - destruct (We cur) as [ND W']. destruct (mget (ensure f cur) cur) as [s|] eqn:Es; [|discriminate].
    intros E; injection E as <-. simpl. split; [now apply NoDup_mset|].
    intros m s'. rewrite mget_mset. destruct (eqb m cur); [|apply W'].
    intros E; injection E as <-. apply NoDup_mset. eauto.
  - destruct (match_section (c :: r)) as [n|]; [|discriminate].
    intros E; injection E as <-. apply We.
Qed.

Lemma parse_lines_wf ls : forall st st', wf_tables (snd st) ->
  parse_lines st ls = Some st' -> wf_tables (snd st').
Proof.
  induction ls as [|l ls IH]; intros st st' W; simpl.
  - intros E; injection E as <-; auto.
  - destruct (parse_line st l) as [st1|] eqn:E; [|discriminate]. apply IH.
    eapply parse_line_wf; eauto.
Qed.

Lemma parse_wf c t : parse c = Some t -> wf_tables t.
Proof.
  unfold parse. destruct (parse_lines ([], []) (lines c)) as [[cur f]|] eqn:E; [|discriminate].
  intros E'; injection E' as <-.
  assert (W : wf_tables f).
  { apply (parse_lines_wf _ _ _) in E; auto. split; [constructor|]. discriminate. }
  unfold ensure. destruct (mget f []) eqn:En; auto. destruct W as [ND W].
  split; [now apply NoDup_mset|]. intros m s. rewrite mget_mset.
  destruct (eqb m []); [|apply W]. intros E'; injection E' as <-. constructor.
Qed.

(** Any history of calls with clean arguments, then save in any order, then
    reopen: exactly the records the history left. *)
Lemma history_save_reopen t0 c h order :
  wf_tables t0 -> clean_db t0 -> Forall clean_op h ->
  (forall k, last_value t0 h [] k = None) \/ (forall n, table_exists t0 h n = true -> n = []) ->
  iterates (db_tables (ini_after (opened t0 c) h)) order ->
  exists t', parse (render order) = Some t' /\
    (forall n k, lookup t' n k = last_value t0 h n k) /\
    (forall n, n <> [] -> (In n (mkeys t') <-> table_exists t0 h n = true)).
Proof.
  intros W C0 Hh Hu Hit.
  destruct (save_reopen (db_tables (ini_after (opened t0 c) h)) order) as (t' & Hp & HL & HK); auto.
  - now apply wf_is_map, wf_after.
  - now apply clean_after.
  - destruct Hu as [Hu|Hu].
    + left. intros k. rewrite lookup_after; auto.
    + right. intros n Hn. apply Hu. eapply exists_after; eauto.
  - exists t'. split; auto. split.
    + intros n k. rewrite <- HL. now apply lookup_after.
    + intros n Hn. rewrite <- HK by auto. now apply exists_after.
Qed.
