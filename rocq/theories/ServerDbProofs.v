(** The server's databases refine maps. *)
From Verif Require Import Base IniModel IniMemProofs IniFileProofs XdrModel XdrProofs RpcModel RpcProofs StrconvModel ServerDbModel.
Local Open Scope N_scope.

(** * Specification *)

(** Rendezvous: a map from PINs to what was stored under them. *)
Definition pins := list (bytes * Rendezvous).

Fixpoint free_pin (tries i : nat) (draws : nat -> option N) (taken : bytes -> bool) : option bytes :=
  match tries with
  | O => None
  | S n =>
      match draws i with
      | Some x => let p := format_uint (x mod 1000000) in
                  if taken p then free_pin n (S i) draws taken else Some p
      | None => free_pin n (S i) draws taken
      end
  end.

Definition rz_spec (M : pins) (q : rz_request) : rz_answer * pins :=
  match q with
  | Store r draws =>
      if 4096 <? N.of_nat (length (Rendezvous_Blob r)) then (Stored (mkRendezvousReply [] (bs "invalid blob size")), M)
      else if match parse_uint (Rendezvous_Expiration r) with Some e => e <=? 168 | None => false end then
        match free_pin 25 0 draws (fun p => match mget M p with Some _ => true | None => false end) with
        | Some p => (Stored (mkRendezvousReply p []), (p, r) :: M)
        | None => (Stored (mkRendezvousReply [] internal_error), M)
        end
      else (Stored (mkRendezvousReply [] (bs "invalid expiration")), M)
  | Fetch tok =>
      (Fetched (match mget M tok with
                | Some r => mkRendezvousPullReply [] tok (Rendezvous_Blob r)
                | None => mkRendezvousPullReply (bs "invalid PIN") [] []
                end), M)
  end.

(** What arrived over the wire: texts within the message size limit. *)
Definition rz_wire (lim : N) (q : rz_request) : Prop :=
  match q with
  | Store r _ => Rendezvous_ok lim r /\ Forall is_byte (Rendezvous_Blob r) /\ Forall is_byte (Rendezvous_Expiration r)
  | Fetch _ => True
  end.

(** Tokens: a map from tokens to expiry times in seconds. *)
Definition tokens := list (bytes * Z).

Definition alive (clock : bytes -> Z) (M : tokens) : tokens :=
  filter (fun ke => (clock (fst ke) <=? snd ke * 1000000000)%Z) M.

Fixpoint free_token (draws : list (option N)) (taken : bytes -> bool) : option (option bytes) :=
  match draws with
  | [] => None
  | None :: _ => Some None
  | Some x :: more =>
      let p := format_uint (x mod 10 ^ 16) in
      if (10 ^ 16 <=? x) && (10 ^ 15 <=? x mod 10 ^ 16) && negb (taken p) then Some (Some p)
      else free_token more taken
  end.

Definition spaced (x : bytes) : bytes :=
  firstn 4 x ++ [SP] ++ firstn 4 (skipn 4 x) ++ [SP] ++ firstn 4 (skipn 8 x) ++ [SP] ++ firstn 4 (skipn 12 x).

Definition tok_spec (M : tokens) (q : tok_request) : tok_answer * tokens :=
  match q with
  | Issue draws now hours =>
      match free_token draws (fun p => match mget M p with Some _ => true | None => false end) with
      | None => (Tool Running, M)
      | Some None => (Tool NoEntropy, M)
      | Some (Some p) => (Tool (Printed p (spaced p)), (p, now / 1000000000 + 3600 * Z.of_N hours)%Z :: M)
      end
  | Use tok now clock =>
      match mget M tok with
      | None => (Valid false, alive clock M)
      | Some e => (Valid (now <=? e * 1000000000)%Z, alive clock (mdel M tok))
      end
  end.

(** The tool is run between 1970 and the year 20000 (seconds since 1970 < 10^12),
    with a life time of at most 2562047 hours (292 years: a time.Duration). *)
Definition tok_wire (q : tok_request) : Prop :=
  match q with
  | Issue draws now hours =>
      (0 <= now < 10 ^ 12 * 1000000000)%Z /\ hours <= 2562047 /\
      Forall (fun x => match x with Some v => v < 2 ^ 64 | None => True end) draws
  | Use _ _ _ => True
  end.

Fixpoint spec_run {Q A M} (spec : M -> Q -> A * M) (m : M) (qs : list Q) : list A * M :=
  match qs with
  | [] => ([], m)
  | q :: r => let (a, m1) := spec m q in let (l, m2) := spec_run spec m1 r in (a :: l, m2)
  end.

(** * Runs *)

Lemma spec_run_app {Q A M} (spec : M -> Q -> A * M) qs : forall m qs',
  spec_run spec m (qs ++ qs') =
  (fst (spec_run spec m qs) ++ fst (spec_run spec (snd (spec_run spec m qs)) qs'),
   snd (spec_run spec (snd (spec_run spec m qs)) qs')).
Proof.
  induction qs as [|q qs IH]; intros m qs'; cbn [spec_run app].
  - cbn. now destruct (spec_run spec m qs').
  - destruct (spec m q) as [a m1]. rewrite IH. destruct (spec_run spec m1 qs) as [l m2] eqn:E. reflexivity.
Qed.

Section Sim.
  Context {Q A M : Type} (step : option bytes -> Q -> A -> option bytes -> Prop)
    (spec : M -> Q -> A * M) (wire : Q -> Prop) (R : option bytes -> M -> Prop).
  Hypothesis sim : forall f m q a f', R f m -> wire q -> step f q a f' ->
    a = fst (spec m q) /\ R f' (snd (spec m q)).
  Hypothesis total : forall f m q, R f m -> wire q -> exists a f', step f q a f'.

  Lemma run_sim f qs aas f' : run step f qs aas f' -> forall m, R f m -> Forall wire qs ->
    aas = fst (spec_run spec m qs) /\ R f' (snd (spec_run spec m qs)).
  Proof.
    induction 1 as [f|f q a f1 qs aas f2 S X IH]; intros m Rm W; [auto|]. inversion W; subst.
    destruct (sim _ _ _ _ _ Rm H1 S) as [-> R1]. destruct (IH _ R1 H2) as [-> R2].
    cbn [spec_run]. destruct (spec m q) as [a m1]. cbn [fst snd] in *. destruct (spec_run spec m1 qs). auto.
  Qed.

  Lemma run_total qs : forall f m, R f m -> Forall wire qs -> exists aas f', run step f qs aas f'.
  Proof.
    induction qs as [|q qs IH]; intros f m Rm W; [exists [], f; constructor|]. inversion W; subst.
    destruct (total f m q Rm H1) as (a & f1 & S). destruct (sim _ _ _ _ _ Rm H1 S) as [_ R1].
    destruct (IH f1 _ R1 H2) as (aas & f2 & X). exists (a :: aas), f2. econstructor; eauto.
  Qed.
End Sim.

(** * Databases with the unnamed table only *)

Definition clean_section (s : section) : Prop := Forall (fun kv => clean_key (fst kv) /\ clean (snd kv)) s.
Definition flat (f : bytes) (s : section) : Prop :=
  parse f = Some [([], s)] /\ NoDup (mkeys s) /\ clean_section s.

Lemma save_flat s order : NoDup (mkeys s) -> clean_section s -> iterates [([], s)] order ->
  exists s', flat (render order) s' /\ forall k, mget s' k = mget s k.
Proof.
  intros ND C I.
  assert (CN : clean_name []) by (split; [split; [intros []|exact Logic.I]|intros []]).
  destruct (save_reopen [([], s)] order) as (t' & P & (L & N')).
  - split; [repeat constructor; intros []|]. constructor; auto.
  - constructor; [|constructor]. split; auto.
  - right. intros n [<-|[]]. reflexivity.
  - exact I.
  - pose proof (parse_wf _ _ P) as W. apply wf_is_map in W. destruct W as [W1 W2].
    assert (X : exists s', t' = [([], s')]).
    { assert (K : In [] (mkeys t')).
      { unfold parse in P. destruct (parse_lines ([], []) (lines (render order))) as [[c x]|]; [|discriminate].
        injection P as <-. unfold ensure. destruct (mget x []) eqn:E.
        - now apply mget_Some_keys in E.
        - apply mget_Some_keys with (v := []). apply mget_mset_eq. }
      assert (A : forall n, In n (mkeys t') -> n = []).
      { intros n Hn. destruct (EqB_dec n []) as [e|ne]; auto. apply N' in Hn; auto. destruct Hn as [<-|[]]. reflexivity. }
      destruct t' as [|[n1 s1] r]; [destruct K|]. pose proof (A n1 (or_introl eq_refl)). subst n1.
      destruct r as [|[n2 s2] r]; [eauto|]. pose proof (A n2 (or_intror (or_introl eq_refl))). subst n2.
      inversion W1; subst. exfalso. apply H1. now left. }
    destruct X as [s' ->]. inversion W2; subst. exists s'.
    assert (G : forall k, mget s' k = mget s k) by (intros k; exact (eq_sym (L [] k))).
    split; auto. split; [auto|split; auto]. apply Forall_forall. intros [k v] Hk.
    apply In_mget in Hk; auto. rewrite G in Hk. apply mget_In in Hk. unfold clean_section in C.
    rewrite Forall_forall in C. exact (C _ Hk).
Qed.

Lemma render_fresh : flat (render [([], [])]) [].
Proof. split; [vm_compute; reflexivity|split; constructor]. Qed.

Lemma iterates_refl t : iterates t t.
Proof.
  exists t. split; auto. induction t; constructor; auto.
Qed.

Lemma saved_flat f d s s0 : db_tables d = [([], s)] -> NoDup (mkeys s) -> clean_section s ->
  (db_dirty d = false -> flat f s0 /\ forall k, mget s0 k = mget s k) ->
  (exists f', saved f d f') /\
  forall f', saved f d f' -> exists s', flat f' s' /\ forall k, mget s' k = mget s k.
Proof.
  intros T ND C U. unfold saved. destruct (db_dirty d).
  - split.
    + eexists. exists (db_tables d). split; [apply iterates_refl|reflexivity].
    + intros f' (order & I & ->). rewrite T in I. apply save_flat; auto.
  - split; [eauto|]. intros f' ->. destruct (U eq_refl). eauto.
Qed.

(** Digits are clean keys and values, base64 is clean. *)
Lemma not_space c : 33 <= c -> is_space c = false.
Proof. intros H. unfold is_space. rewrite !orb_false_iff, !N.eqb_neq. lia. Qed.

Lemma clean_visible s : Forall (fun c => 33 <= c) s -> clean s.
Proof.
  intros F. split.
  - intros H. rewrite Forall_forall in F. specialize (F _ H). unfold LF in F. lia.
  - destruct s as [|c r]; auto. inversion F; subst. split; [now apply not_space|].
    apply not_space. rewrite Forall_forall in F. apply F. destruct (@exists_last N (c :: r)) as (l & x & E); [discriminate|].
    rewrite E, last_last. apply in_or_app. right. now left.
Qed.

Lemma digit_range s : forallb is_digit s = true -> Forall (fun c => 48 <= c <= 57) s.
Proof.
  rewrite forallb_forall, Forall_forall. intros H c Hc. specialize (H c Hc). unfold is_digit in H.
  apply andb_prop in H as [H1 H2]. apply N.leb_le in H1, H2. lia.
Qed.

Lemma clean_digits n : n < 2 ^ 64 -> clean_key (format_uint n) /\ clean (format_uint n).
Proof.
  intros H. destruct (format_digits n H) as [NE D]. apply digit_range in D.
  assert (C : clean (format_uint n)).
  { apply clean_visible. revert D. apply Forall_impl. intros; lia. }
  split; auto. split; auto. split.
  - intros I. rewrite Forall_forall in D. specialize (D _ I). unfold EQ in D. lia.
  - destruct (format_uint n) as [|c r]; [auto|]. inversion D; subst. unfold SEMI, HASH. lia.
Qed.

Lemma clean_b64 l : Forall is_byte l -> clean (b64_encode l).
Proof. intros H. apply clean_visible. generalize (b64_chars l H). apply Forall_impl. intros; lia. Qed.

Lemma flat_get t s k : db_tables t = [([], s)] ->
  ini_get t [] k = match mget s k with Some v => Ok v | None => Err ErrNotFound end.
Proof. intros E. unfold ini_get. rewrite E. reflexivity. Qed.

Lemma flat_set t s k v : db_tables t = [([], s)] ->
  ini_set t [] k v = ({| db_tables := [([], mset s k v)]; db_dirty := true; db_created := db_created t |}, None).
Proof. intros E. unfold ini_set. rewrite E. reflexivity. Qed.

Lemma flat_del t s k : db_tables t = [([], s)] ->
  ini_del t [] k = ({| db_tables := [([], mdel s k)]; db_dirty := true; db_created := db_created t |}, None).
Proof. intros E. unfold ini_del. rewrite E. reflexivity. Qed.

Lemma clean_section_set s k v : clean_key k -> clean v -> clean_section s -> clean_section (mset s k v).
Proof.
  intros K V C. apply Forall_forall. intros [k' v'] H. unfold clean_section in C. rewrite Forall_forall in C.
  induction s as [|[k1 v1] s IH]; cbn [mset] in H.
  - destruct H as [H|[]]. injection H as <- <-. auto.
  - destruct (eqb_spec k k1) as [<-|ne].
    + destruct H as [H|H]; [injection H as <- <-; auto|]. apply (C (k', v')). now right.
    + destruct H as [H|H]; [injection H as <- <-; apply (C (k1, v1)); now left|].
      apply IH; auto. intros x Hx. apply C. now right.
Qed.

(** * Rendezvous *)

Lemma enc_bytes_Rendezvous lim r : Rendezvous_ok lim r ->
  Forall is_byte (Rendezvous_Blob r) -> Forall is_byte (Rendezvous_Expiration r) ->
  Forall is_byte (enc Rendezvous_codec r).
Proof.
  intros _ B E. assert (Z : forall n, Forall is_byte (repeat 0 n)).
  { intros n. apply Forall_forall. intros x Hx. apply repeat_spec in Hx. subst. reflexivity. }
  assert (M : forall n, is_byte (n mod 256)) by (intros n; apply N.mod_lt; lia).
  unfold Rendezvous_codec. cbn -[N.modulo repeat pad_len].
  repeat (first [apply Forall_cons; [apply M|] | apply Forall_app; split]); auto.
Qed.

Definition packed (r : Rendezvous) : bytes := b64_encode (enc Rendezvous_codec r).

Definition pin_db (lim : N) (s : section) (M : pins) : Prop :=
  NoDup (mkeys s) /\ clean_section s /\
  (forall k, mget s k = option_map packed (mget M k)) /\
  Forall (fun kr => rz_wire lim (Store (snd kr) (fun _ => None))) M.

Definition rz_rel (lim : N) (file : option bytes) (M : pins) : Prop :=
  match file with
  | None => M = []
  | Some f => exists s, flat f s /\ pin_db lim s M
  end.

Lemma rz_loop_spec n : forall i draws d s M lim r,
  db_tables d = [([], s)] -> pin_db lim s M -> rz_wire lim (Store r draws) ->
  match free_pin n i draws (fun p => match mget M p with Some _ => true | None => false end) with
  | Some p => exists d' s', rz_loop n i draws d r = (d', mkRendezvousReply p []) /\
      db_tables d' = [([], s')] /\ db_dirty d' = true /\ pin_db lim s' ((p, r) :: M) /\ mget M p = None
  | None => rz_loop n i draws d r = (d, mkRendezvousReply [] internal_error)
  end.
Proof.
  induction n as [|n IH]; intros i draws d s M lim r T P W; [reflexivity|].
  cbn [free_pin rz_loop]. destruct (draws i) as [x|]; [|now apply (IH _ _ _ s M lim)].
  cbv zeta. set (p := format_uint (x mod 1000000)). rewrite (flat_get _ s) by auto.
  pose proof P as (ND & C & G & F). rewrite G. destruct (mget M p) as [r0|] eqn:E; cbn [option_map].
  - now apply (IH _ _ _ s M lim).
  - rewrite (flat_set _ s) by auto. eexists. eexists. split; [reflexivity|]. split; [reflexivity|]. split; [reflexivity|].
    assert (B : x mod 1000000 < 2 ^ 64).
    { eapply N.lt_le_trans; [apply N.mod_lt; lia|]. discriminate. }
    split; [|auto]. split; [now apply NoDup_mset|]. split; [|split].
    + destruct W as (Wo & W1 & W2). apply clean_section_set; auto; [apply clean_digits; auto|].
      apply clean_b64. eapply enc_bytes_Rendezvous; eauto.
    + intros k. rewrite mget_mset, G. cbn [mget]. destruct (eqb_spec k p) as [->|ne]; [reflexivity|reflexivity].
    + constructor; auto.
Qed.

Lemma rz_open lim file M : rz_rel lim file M ->
  exists f d s, db_open file = Some (f, d) /\ flat f s /\ db_tables d = [([], s)] /\ db_dirty d = false /\ pin_db lim s M.
Proof.
  intros R. destruct file as [c|]; cbn in R |- *.
  - destruct R as (s & F & P). pose proof F as (E & _). rewrite E. exists c, (opened [([], s)] false), s. auto.
  - subst M. exists (render [([], [])]), ini_fresh, []. repeat split; auto; try apply render_fresh; constructor.
Qed.

Lemma rz_step_full lim file M q : rz_rel lim file M -> rz_wire lim q ->
  (exists a f', rz_step lim file q a f') /\
  forall a f', rz_step lim file q a f' -> a = fst (rz_spec M q) /\ rz_rel lim f' (snd (rz_spec M q)).
Proof.
  intros R W. destruct (rz_open _ _ _ R) as (f & d & s & O & F & T & D & P).
  unfold rz_step. rewrite O. destruct q as [r draws|tok].
  - assert (G : match fst (rz_spec M (Store r draws)) with
      | Stored p => exists d', rz_store draws d r = (d', p) /\ exists s', db_tables d' = [([], s')] /\
          pin_db lim s' (snd (rz_spec M (Store r draws))) /\ (db_dirty d' = false -> s' = s)
      | _ => False end).
    { pose proof (rz_loop_spec 25 0 draws d s M lim r T P W) as L. unfold rz_store. cbn [rz_spec].
      generalize dependent (rz_loop 25 0 draws d r). intros lp L.
      generalize dependent (free_pin 25 0 draws (fun p => match mget M p with Some _ => true | None => false end)).
      intros fp L.
      destruct (4096 <? N.of_nat (length (Rendezvous_Blob r))); [cbn [fst snd]; eauto 6|].
      destruct (parse_uint (Rendezvous_Expiration r)) as [e|]; [|cbn [fst snd]; eauto 6].
      rewrite (N.leb_antisym 168 e). destruct (168 <? e); cbn [negb]; [cbn [fst snd]; eauto 6|].
      destruct fp as [p|]; cbn [fst snd]; [|rewrite L; eauto 6].
      destruct L as (d' & s' & L & T' & D' & P' & N'). exists d'. split; auto. exists s'. split; auto. split; auto. congruence. }
    destruct (rz_spec M (Store r draws)) as [a0 M0]. cbn [fst snd] in *. destruct a0 as [p| |]; try contradiction.
    destruct G as (d' & L & s' & T' & P' & U). rewrite L. pose proof P' as (ND' & C' & G' & F').
    destruct (saved_flat f d' s' s T' ND' C') as [X Y]; [intros Dd; rewrite (U Dd); auto|].
    split; [destruct X as [f' X]; eauto 6|]. intros a fx (-> & f' & S & ->). split; auto.
    destruct (Y f' S) as (s2 & F2 & G2). exists s2. split; auto. destruct F2 as (_ & ND2 & C2).
    split; auto. split; auto. split; auto. intros k. now rewrite G2.
  - split; [eauto|]. intros a f' (-> & ->). cbn [rz_spec fst snd]. split; [|exists s; auto].
    f_equal. unfold rz_pull. rewrite (flat_get _ s) by auto. destruct P as (ND & C & G & FF).
    rewrite G. destruct (mget M tok) as [r|] eqn:E; cbn [option_map]; [|reflexivity].
    apply mget_In in E. rewrite Forall_forall in FF. specialize (FF _ E). destruct FF as (Wo & W1 & W2). cbn [snd] in *.
    unfold packed. rewrite b64_round by (eapply enc_bytes_Rendezvous; eauto).
    destruct good_Rendezvous as [RT _]. pose proof (RT lim r [] Wo) as X. rewrite app_nil_r in X. now rewrite X.
Qed.

Lemma rz_refines lim qs aas f' : run (rz_step lim) None qs aas f' -> Forall (rz_wire lim) qs ->
  aas = fst (spec_run rz_spec [] qs) /\ rz_rel lim f' (snd (spec_run rz_spec [] qs)).
Proof.
  intros X W. eapply run_sim with (R := rz_rel lim) (wire := rz_wire lim); eauto; [|reflexivity].
  intros f m q a f1 R1 W1 S. destruct (rz_step_full lim f m q R1 W1) as [_ Y]. auto.
Qed.

Lemma rz_runs lim qs : Forall (rz_wire lim) qs -> exists aas f', run (rz_step lim) None qs aas f'.
Proof.
  intros W. eapply run_total with (spec := rz_spec) (R := rz_rel lim) (wire := rz_wire lim); eauto; [| |reflexivity].
  - intros f m q a f1 R1 W1 S. destruct (rz_step_full lim f m q R1 W1) as [_ Y]. auto.
  - intros f m q R1 W1. destruct (rz_step_full lim f m q R1 W1) as [Y _]. auto.
Qed.

(** In the specification an entry never changes. *)
Lemma free_pin_free n : forall i draws taken p, free_pin n i draws taken = Some p -> taken p = false.
Proof.
  induction n as [|n IH]; intros i draws taken p; cbn [free_pin]; [discriminate|].
  destruct (draws i); [|apply IH]. cbv zeta. destruct (taken (format_uint (n0 mod 1000000))) eqn:E; [apply IH|].
  now injection 1 as <-.
Qed.

Lemma rz_keeps M q p r : mget M p = Some r -> mget (snd (rz_spec M q)) p = Some r.
Proof.
  intros H. destruct q as [r' draws|tok]; cbn [rz_spec]; auto.
  destruct (4096 <? _); auto. destruct (match parse_uint _ with Some _ => _ | None => _ end); auto.
  destruct (free_pin 25 0 draws _) as [p'|] eqn:E; auto. apply free_pin_free in E. cbn [snd mget].
  destruct (eqb_spec p p') as [->|ne]; auto. now rewrite H in E.
Qed.

Lemma rz_keeps_run qs : forall M p r, mget M p = Some r -> mget (snd (spec_run rz_spec M qs)) p = Some r.
Proof.
  induction qs as [|q qs IH]; intros M p r H; auto. cbn [spec_run].
  pose proof (rz_keeps M q p r H) as K. destruct (rz_spec M q) as [a M1]. specialize (IH M1 p r K).
  destruct (spec_run rz_spec M1 qs). exact IH.
Qed.

(** * Tokens *)

Definition sane (e : Z) : Prop := (0 <= e < 2 ^ 62)%Z.
Definition tok_db (s : section) (M : tokens) : Prop :=
  NoDup (mkeys s) /\ clean_section s /\ NoDup (mkeys M) /\
  (forall k, mget s k = option_map (fun e => format_uint (Z.to_N e)) (mget M k)) /\
  Forall (fun ke => sane (snd ke)) M.

Definition tok_rel (file : option bytes) (M : tokens) : Prop :=
  match file with
  | None => M = []
  | Some f => exists s, flat f s /\ tok_db s M
  end.

Lemma wrap64_id z : (- 2 ^ 63 <= z < 2 ^ 63)%Z -> wrap64 z = z.
Proof. intros H. unfold wrap64. rewrite Z.mod_small; lia. Qed.

Lemma sane_parse e : sane e -> parse_int (format_uint (Z.to_N e)) = Some e.
Proof. intros [A B]. rewrite format_parse_int; [now rewrite Z2N.id|]. change (2 ^ 63) with (Z.to_N (2 ^ 63)). apply Z2N.inj_lt; lia. Qed.

Lemma sane_ns e : sane e -> unix_ns e = (e * 1000000000)%Z.
Proof. intros [A B]. unfold unix_ns. rewrite wrap64_id; lia. Qed.

Lemma sane_clean e : sane e -> clean (format_uint (Z.to_N e)).
Proof.
  intros [A B]. apply clean_digits. change (2 ^ 64) with (Z.to_N (2 ^ 64)). apply Z2N.inj_lt; lia.
Qed.

Lemma mget_filter {V} (P : bytes * V -> bool) (m : list (bytes * V)) k : NoDup (mkeys m) ->
  mget (filter P m) k = match mget m k with Some v => if P (k, v) then Some v else None | None => None end.
Proof.
  induction m as [|[k1 v1] m IH]; intros ND; [reflexivity|]. cbn [mkeys map] in ND. inversion ND; subst.
  cbn [filter mget]. destruct (eqb_spec k k1) as [->|ne].
  - destruct (P (k1, v1)) eqn:E; cbn [mget].
    + now rewrite eqb_refl.
    + rewrite IH by auto. assert (X : mget m k1 = None) by (apply mget_None; auto). now rewrite X.
  - destruct (P (k1, v1)); cbn [mget]; [|now apply IH]. destruct (eqb_spec k k1); [congruence|now apply IH].
Qed.

Lemma mkeys_filter_sub {V} (P : bytes * V -> bool) (m : list (bytes * V)) k : In k (mkeys (filter P m)) -> In k (mkeys m).
Proof.
  unfold mkeys. rewrite !in_map_iff. intros ([k' v] & <- & H). apply filter_In in H. exists (k', v). tauto.
Qed.

Lemma NoDup_filter_keys {V} (P : bytes * V -> bool) (m : list (bytes * V)) : NoDup (mkeys m) -> NoDup (mkeys (filter P m)).
Proof.
  induction m as [|[k v] m IH]; intros ND; [constructor|]. cbn [mkeys map] in ND. inversion ND; subst.
  cbn [filter]. destruct (P (k, v)); [|now apply IH]. cbn [mkeys map]. constructor; [|now apply IH].
  intros H. apply mkeys_filter_sub in H. auto.
Qed.

(** Pruning deletes exactly the expired records. *)
Definition keep (clock : bytes -> Z) (kv : bytes * bytes) : bool :=
  match parse_int (snd kv) with Some t => negb (unix_ns t <? clock (fst kv))%Z | None => false end.

Lemma prune_fold clock l : forall d s, db_tables d = [([], s)] -> NoDup (mkeys s) -> clean_section s ->
  exists s', db_tables (fold_left (fun d (kv : bytes * bytes) =>
      match parse_int (snd kv) with
      | None => fst (ini_del d [] (fst kv))
      | Some t => if (unix_ns t <? clock (fst kv))%Z then fst (ini_del d [] (fst kv)) else d
      end) l d) = [([], s')] /\ NoDup (mkeys s') /\ clean_section s' /\
    (forall k, mget s' k = if existsb (fun kv => eqb k (fst kv) && negb (keep clock kv)) l then None else mget s k) /\
    (db_dirty (fold_left (fun d (kv : bytes * bytes) =>
      match parse_int (snd kv) with
      | None => fst (ini_del d [] (fst kv))
      | Some t => if (unix_ns t <? clock (fst kv))%Z then fst (ini_del d [] (fst kv)) else d
      end) l d) = false -> db_dirty d = false /\ existsb (fun kv => negb (keep clock kv)) l = false).
Proof.
  induction l as [|[k0 v0] l IH]; intros d s T ND C; cbn [fold_left existsb].
  - exists s. repeat split; auto.
  - cbn [fst snd].
    assert (X : exists d1, (match parse_int v0 with
        | None => fst (ini_del d [] k0)
        | Some t => if (unix_ns t <? clock k0)%Z then fst (ini_del d [] k0) else d
        end) = d1 /\ exists s1, db_tables d1 = [([], s1)] /\ NoDup (mkeys s1) /\ clean_section s1 /\
        (forall k, mget s1 k = if eqb k k0 && negb (keep clock (k0, v0)) then None else mget s k) /\
        (db_dirty d1 = false -> db_dirty d = false /\ keep clock (k0, v0) = true)).
    { eexists. split; [reflexivity|]. unfold keep. cbn [fst snd].
      assert (Y : exists s1, db_tables (fst (ini_del d [] k0)) = [([], s1)] /\ NoDup (mkeys s1) /\ clean_section s1 /\
        (forall k, mget s1 k = if eqb k k0 && true then None else mget s k) /\
        db_dirty (fst (ini_del d [] k0)) = true).
      { rewrite (flat_del _ s) by auto. cbn. exists (mdel s k0). split; auto. split; [now apply NoDup_mdel|].
        split; [apply Forall_mdel; auto|]. split; auto. intros k. rewrite mget_mdel, andb_true_r. reflexivity. }
      destruct (parse_int v0) as [t|]; [destruct (unix_ns t <? clock k0)%Z|]; cbn [negb].
      - destruct Y as (s1 & Y1 & Y2 & Y3 & Y4 & Y5). exists s1. repeat split; auto; congruence.
      - exists s. repeat split; auto. intros k. now rewrite andb_false_r.
      - destruct Y as (s1 & Y1 & Y2 & Y3 & Y4 & Y5). exists s1. repeat split; auto; congruence. }
    destruct X as (d1 & -> & s1 & T1 & ND1 & C1 & G1 & U1).
    destruct (IH d1 s1 T1 ND1 C1) as (s' & A1 & A2 & A3 & A4 & A5). exists s'. repeat split; auto.
    + intros k. rewrite A4, G1. cbn [fst]. destruct (existsb (fun kv => eqb k (fst kv) && negb (keep clock kv)) l), (eqb k k0 && negb (keep clock (k0, v0))); reflexivity.
    + now destruct (U1 (proj1 (A5 H))).
    + destruct (A5 H) as [B1 B2]. destruct (U1 B1) as [_ B3]. rewrite B3, B2. reflexivity.
Qed.

Lemma tok_db_alive clock s M s' : tok_db s M -> NoDup (mkeys s') -> clean_section s' ->
  (forall k, mget s' k = match mget s k with Some v => if keep clock (k, v) then Some v else None | None => None end) ->
  tok_db s' (alive clock M).
Proof.
  intros (A1 & A2 & A3 & A4 & A5) B1 B2 B3. split; auto. split; auto. split; [now apply NoDup_filter_keys|]. split.
  - intros k. rewrite B3. unfold alive. rewrite mget_filter by auto. rewrite A4.
    destruct (mget M k) as [e|] eqn:E; cbn [option_map]; auto.
    apply mget_In in E. rewrite Forall_forall in A5. specialize (A5 _ E). cbn [snd] in A5.
    unfold keep. cbn [fst snd]. rewrite sane_parse, sane_ns by auto. rewrite <- Z.leb_antisym.
    destruct (clock k <=? e * 1000000000)%Z; reflexivity.
  - apply Forall_forall. intros x H. apply filter_In in H. rewrite Forall_forall in A5. apply A5. tauto.
Qed.

Lemma prune_spec clock d s : db_tables d = [([], s)] -> NoDup (mkeys s) -> clean_section s ->
  exists s', db_tables (prune_pending clock d) = [([], s')] /\ NoDup (mkeys s') /\ clean_section s' /\
    (forall k, mget s' k = match mget s k with Some v => if keep clock (k, v) then Some v else None | None => None end) /\
    (db_dirty (prune_pending clock d) = false -> db_dirty d = false /\ forall k, mget s' k = mget s k).
Proof.
  intros T ND C. unfold prune_pending. assert (E : ini_records d [] = s) by (unfold ini_records; rewrite T; reflexivity).
  rewrite E. destruct (prune_fold clock s d s T ND C) as (s' & A1 & A2 & A3 & A4 & A5). exists s'.
  split; [exact A1|]. split; [exact A2|]. split; [exact A3|].
  assert (G : forall k, mget s' k = match mget s k with Some v => if keep clock (k, v) then Some v else None | None => None end).
  { intros k. rewrite A4. destruct (mget s k) as [v|] eqn:Ek.
    - destruct (keep clock (k, v)) eqn:K.
      + destruct (existsb (fun kv => eqb k (fst kv) && negb (keep clock kv)) s) eqn:X; auto. apply existsb_exists in X. destruct X as ([k' v'] & I & Y).
        apply andb_prop in Y as [Y1 Y2]. apply eqb_true in Y1. cbn [fst] in Y1. subst k'.
        apply In_mget in I; auto. rewrite Ek in I. injection I as <-. rewrite K in Y2. discriminate.
      + destruct (existsb (fun kv => eqb k (fst kv) && negb (keep clock kv)) s) eqn:X; auto. assert (F : existsb (fun kv => eqb k (fst kv) && negb (keep clock kv)) s = true).
        { apply existsb_exists. exists (k, v). split; [now apply mget_In|]. cbn [fst]. rewrite eqb_refl, K. reflexivity. }
        rewrite X in F. discriminate.
    - destruct (existsb (fun kv => eqb k (fst kv) && negb (keep clock kv)) s); auto. }
  split; auto. intros D. destruct (A5 D) as [D1 D2]. split; auto.
  intros k. rewrite G. destruct (mget s k) as [v|] eqn:Ek; auto. destruct (keep clock (k, v)) eqn:K; auto. exfalso.
  assert (F : existsb (fun kv => negb (keep clock kv)) s = true).
  { apply existsb_exists. exists (k, v). split; [now apply mget_In|]. now rewrite K. }
  congruence.
Qed.

Lemma mdel_absent {V} (M : list (bytes * V)) tok : mget M tok = None -> mdel M tok = M.
Proof.
  unfold mdel. induction M as [|[k v] M IH]; auto. cbn [mget filter fst]. destruct (eqb_spec tok k); [discriminate|].
  intros E. cbn [negb]. now rewrite IH.
Qed.

Lemma tok_db_del s M tok : tok_db s M -> tok_db (mdel s tok) (mdel M tok).
Proof.
  intros (A1 & A2 & A3 & A4 & A5). split; [now apply NoDup_mdel|]. split; [apply Forall_mdel; auto|].
  split; [now apply NoDup_mdel|]. split; [|apply Forall_mdel; auto].
  intros k. rewrite !mget_mdel. destruct (eqb k tok); auto.
Qed.

Lemma valid_token_spec tok now clock d s M : db_tables d = [([], s)] -> db_dirty d = false -> tok_db s M ->
  exists d' s', valid_token tok now clock d = (d', match mget M tok with Some e => (now <=? e * 1000000000)%Z | None => false end) /\
    db_tables d' = [([], s')] /\ NoDup (mkeys s') /\ clean_section s' /\
    tok_db s' (alive clock (mdel M tok)) /\
    (db_dirty d' = false -> forall k, mget s k = mget s' k).
Proof.
  intros T D P. pose proof P as (A1 & A2 & A3 & A4 & A5). unfold valid_token. rewrite (flat_get _ s) by auto. rewrite A4.
  destruct (mget M tok) as [e|] eqn:E; cbn [option_map].
  - assert (Se : sane e) by (apply mget_In in E; rewrite Forall_forall in A5; exact (A5 _ E)).
    rewrite (flat_del _ s) by auto. rewrite sane_parse, sane_ns by auto. rewrite <- Z.leb_antisym.
    pose proof (tok_db_del s M tok P) as P'. pose proof P' as (B1 & B2 & _).
    destruct (prune_spec clock {| db_tables := [([], mdel s tok)]; db_dirty := true; db_created := db_created d |} (mdel s tok) eq_refl B1 B2)
      as (s' & C1 & C2 & C3 & C4 & C5).
    eexists. exists s'. split; [reflexivity|]. split; [exact C1|]. split; [exact C2|]. split; [exact C3|]. split.
    + eapply tok_db_alive; eauto.
    + intros X. destruct (C5 X) as [Y _]. discriminate.
  - destruct (prune_spec clock d s T A1 A2) as (s' & C1 & C2 & C3 & C4 & C5).
    eexists. exists s'. split; [reflexivity|]. split; [exact C1|]. split; [exact C2|]. split; [exact C3|]. split.
    + rewrite mdel_absent by auto. eapply tok_db_alive; eauto.
    + intros X k. destruct (C5 X) as [_ Y]. now rewrite Y.
Qed.

Lemma tool_expiry_eq now hours : (0 <= now < 10 ^ 12 * 1000000000)%Z -> hours <= 2562047 ->
  tool_expiry now hours = Z.to_N (now / 1000000000 + 3600 * Z.of_N hours) /\
  sane (now / 1000000000 + 3600 * Z.of_N hours).
Proof.
  intros N H.
  assert (Hd : (0 <= now / 1000000000 < 10 ^ 12)%Z).
  { split; [apply Z.div_pos; lia|]. apply Z.div_lt_upper_bound; lia. }
  unfold tool_expiry, sane. rewrite (wrap64_id (Z.of_N hours)) by lia. rewrite wrap64_id by lia.
  replace (now + Z.of_N hours * 3600000000000)%Z with (now + (3600 * Z.of_N hours) * 1000000000)%Z by lia.
  rewrite Z.div_add by lia. rewrite Z.mod_small by lia. split; [reflexivity|lia].
Qed.

Lemma in_fours_spaced x : (length x = 16)%nat -> in_fours x = Some (spaced x).
Proof.
  intros H. unfold in_fours, spaced. rewrite H. cbn [Nat.eqb]. rewrite (firstn_all2 (n := 4) (skipn 12 x)); auto.
  rewrite skipn_length. lia.
Qed.

Lemma format_length n : n < 10 ^ 16 -> (length (format_uint n) = 16)%nat <-> 10 ^ 15 <= n.
Proof.
  intros H. unfold format_uint.
  assert (B : n < 10 ^ N.of_nat 20) by (eapply N.lt_trans; [exact H|reflexivity]).
  assert (NE : dec_digits 20 n <> []) by (apply (dec_digits_spec 20 n B); lia).
  set (k := length (dec_digits 20 n)).
  destruct (dec_length 20 n k B) as [A1 A2]; auto; [|lia|].
  { unfold k. destruct (dec_digits 20 n); [congruence|cbn; lia]. }
  split; intros X.
  - rewrite X in *. destruct A2 as [A2|A2]; [discriminate|]. exact A2.
  - assert (K1 : (15 < k)%nat).
    { apply Nat.nle_gt. intros Y. assert (10 ^ N.of_nat k <= 10 ^ 15) by (apply N.pow_le_mono_r; lia). lia. }
    assert (K2 : (k < 17)%nat).
    { apply Nat.nle_gt. intros Y. destruct A2 as [A2|A2]; [lia|].
      assert (10 ^ 16 <= 10 ^ N.of_nat (k - 1)) by (apply N.pow_le_mono_r; lia). lia. }
    lia.
Qed.

Lemma tool_loop_spec draws now hours : forall d s M,
  (0 <= now < 10 ^ 12 * 1000000000)%Z -> hours <= 2562047 ->
  db_tables d = [([], s)] -> tok_db s M ->
  match free_token draws (fun p => match mget M p with Some _ => true | None => false end) with
  | None => tool_loop draws now hours d = (d, Running)
  | Some None => tool_loop draws now hours d = (d, NoEntropy)
  | Some (Some p) => exists d' s', tool_loop draws now hours d = (d', Printed p (spaced p)) /\
      db_tables d' = [([], s')] /\ db_dirty d' = true /\
      tok_db s' ((p, now / 1000000000 + 3600 * Z.of_N hours)%Z :: M) /\ mget M p = None
  end.
Proof.
  induction draws as [|[x|] draws IH]; intros d s M H1 H2 T P; cbn [free_token tool_loop]; auto.
  change 10000000000000000 with (10 ^ 16). rewrite N.leb_antisym. cbv zeta.
  destruct (x <? 10 ^ 16) eqn:E1; cbn [negb andb].
  - now apply (IH d s M).
  - set (n := x mod 10 ^ 16) in *. assert (B : n < 10 ^ 16) by (apply N.mod_lt; discriminate).
    pose proof P as (A1 & A2 & A3 & A4 & A5). rewrite (flat_get _ s) by auto. rewrite A4.
    destruct (mget M (format_uint n)) as [e|] eqn:E2; cbn [option_map negb].
    + rewrite andb_false_r. now apply (IH d s M).
    + rewrite andb_true_r. destruct (N.leb_spec (10 ^ 15) n) as [L|L].
      * apply format_length in L; auto. rewrite in_fours_spaced by auto. rewrite (flat_set _ s) by auto.
        eexists. eexists. split; [reflexivity|]. split; [reflexivity|]. split; [reflexivity|]. split; [|auto].
        destruct (tool_expiry_eq now hours H1 H2) as [-> S].
        assert (B' : n < 2 ^ 64) by (eapply N.lt_trans; [exact B|reflexivity]).
        split; [now apply NoDup_mset|]. split; [apply clean_section_set; auto; [apply clean_digits; auto|now apply sane_clean]|].
        split; [cbn [mkeys map fst]; constructor; auto; now apply mget_None|]. split.
        -- intros k. rewrite mget_mset. cbn [mget]. destruct (eqb_spec k (format_uint n)); auto.
        -- constructor; auto.
      * assert (X : in_fours (format_uint n) = None).
        { unfold in_fours. destruct (Nat.eqb_spec (length (format_uint n)) 16) as [Y|Y]; auto.
          apply format_length in Y; auto. lia. }
        rewrite X. now apply (IH d s M).
Qed.

Lemma alive_nil clock : alive clock [] = [].
Proof. reflexivity. Qed.

Lemma tok_step_full file M q : tok_rel file M -> tok_wire q ->
  (exists a f', tok_step file q a f') /\
  forall a f', tok_step file q a f' -> a = fst (tok_spec M q) /\ tok_rel f' (snd (tok_spec M q)).
Proof.
  intros R W.
  assert (O : exists f d s, db_open file = Some (f, d) /\ flat f s /\ db_tables d = [([], s)] /\ db_dirty d = false /\ tok_db s M /\
    (db_created d = true -> M = [])).
  { destruct file as [c|]; cbn in R |- *.
    - destruct R as (s & F & P). pose proof F as (E & _). rewrite E. exists c, (opened [([], s)] false), s.
      repeat (split; auto). discriminate.
    - subst M. exists (render [([], [])]), ini_fresh, []. repeat split; auto; try apply render_fresh; constructor. }
  destruct O as (f & d & s & O & F & T & D & P & CR). unfold tok_step. rewrite O. destruct q as [draws now hours|tok now clock].
  - destruct W as (W1 & W2 & W3). pose proof (tool_loop_spec draws now hours d s M W1 W2 T P) as L. cbn [tok_spec].
    destruct (free_token draws _) as [[p|]|].
    + destruct L as (d' & s' & L & T' & D' & P' & N'). rewrite L. cbn [fst snd]. pose proof P' as (B1 & B2 & _).
      destruct (saved_flat f d' s' [] T' B1 B2) as [X Y]; [congruence|].
      split; [destruct X as [f' X]; eauto 6|]. intros a fx (-> & f' & S & ->). split; auto.
      destruct (Y f' S) as (s2 & F2 & G2). exists s2. split; auto. destruct F2 as (_ & ND2 & C2).
      destruct P' as (_ & _ & P3 & P4 & P5). repeat (split; auto). intros k. now rewrite G2.
    + rewrite L. split; [eauto|]. intros a f' (-> & ->). split; auto. exists s. auto.
    + rewrite L. split; [eauto|]. intros a f' (-> & ->). split; auto. exists s. auto.
  - destruct (db_created d) eqn:CD.
    + rewrite (CR eq_refl) in *. split; [eauto|]. intros a f' (-> & ->). split; auto. exists s. auto.
    + destruct (valid_token_spec tok now clock d s M T D P) as (d' & s' & V & T' & B1 & B2 & P' & U). rewrite V.
      destruct (saved_flat f d' s' s T' B1 B2) as [X Y].
      { intros Dd. split; auto. }
      assert (E : tok_spec M (Use tok now clock) = (Valid (match mget M tok with Some e => (now <=? e * 1000000000)%Z | None => false end), alive clock (mdel M tok))).
      { cbn [tok_spec]. destruct (mget M tok) eqn:E; auto. now rewrite mdel_absent. }
      rewrite E. cbn [fst snd]. split; [destruct X as [f' X]; eauto 6|].
      intros a fx (-> & f' & S & ->). split; auto. destruct (Y f' S) as (s2 & F2 & G2). exists s2. split; auto.
      destruct F2 as (_ & ND2 & C2). destruct P' as (_ & _ & P3 & P4 & P5). repeat (split; auto). intros k. now rewrite G2.
Qed.

Lemma tok_refines qs aas f' : run tok_step None qs aas f' -> Forall tok_wire qs ->
  aas = fst (spec_run tok_spec [] qs) /\ tok_rel f' (snd (spec_run tok_spec [] qs)).
Proof.
  intros X W. eapply run_sim with (R := tok_rel) (wire := tok_wire); eauto; [|reflexivity].
  intros f m q a f1 R1 W1 S. destruct (tok_step_full f m q R1 W1) as [_ Y]. auto.
Qed.

Lemma tok_runs qs : Forall tok_wire qs -> exists aas f', run tok_step None qs aas f'.
Proof.
  intros W. eapply run_total with (spec := tok_spec) (R := tok_rel) (wire := tok_wire); eauto; [| |reflexivity].
  - intros f m q a f1 R1 W1 S. destruct (tok_step_full f m q R1 W1) as [_ Y]. auto.
  - intros f m q R1 W1. destruct (tok_step_full f m q R1 W1) as [Y _]. auto.
Qed.
