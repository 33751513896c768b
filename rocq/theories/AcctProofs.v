(** Facts about the account store. *)
From Verif Require Import Base HexModel IniModel IniMemProofs IniFileProofs IniDiskProofs XdrModel XdrProofs RpcModel RpcProofs
  StrconvModel ServerDbModel ServerDbProofs AcctModel BlobProps.
Local Open Scope N_scope.

(** * Specification *)

(** What an account says about itself: its identity, and whether it is listed in
    the directory. *)
Definition field (a : acct) (k : bytes) : option bytes :=
  match a_user a with
  | Some f => match parse f with Some t => IniFileProofs.lookup t [] k | None => None end
  | None => None
  end.
Definition identity_of (a : acct) : option PublicIdentity :=
  match field a (bs "identity") with
  | Some v => match b64_decode v with
              | Some b => option_map fst (dec PublicIdentity_codec 0 b)
              | None => None
              end
  | None => None
  end.
Definition is_listed (a : acct) : Prop := field a (bs "listed") = Some (bs "1").

(** [n] is a listed account with this nick. *)
Definition lists (s : store) (n nick : bytes) (p : PublicIdentity) : Prop :=
  exists a, mget s n = Some a /\ is_listed a /\ identity_of a = Some p /\ PublicIdentity_Nick p = nick.

(** Identities as they arrive over the wire. *)
Definition pid_wire (p : PublicIdentity) : Prop :=
  PublicIdentity_ok 0 p /\ Forall is_byte (enc PublicIdentity_codec p) /\ Forall is_byte (PublicIdentity_Identity p).
Definition op_wire (o : acct_op) : Prop :=
  match o with
  | OCreate pid _ => pid_wire pid
  | OPush id | OPull id | ODisable id | OEnable id => Forall is_byte id
  | ODeliver to _ _ _ _ _ => Forall is_byte to
  | ODelete id _ => Forall is_byte id
  end.

(** * Names *)

Lemma hex_inj a b : Forall is_byte a -> Forall is_byte b -> hex_encode a = hex_encode b -> a = b.
Proof. intros A B E. apply hex_round in A, B. congruence. Qed.

Lemma hex_no_dot a b : Forall is_byte a -> hex_encode a <> DOT :: b.
Proof.
  intros F. destruct a as [|x a]; [discriminate|]. intros E. apply (f_equal (fun l => hd 0 l)) in E.
  unfold hex_encode in E. cbn [flat_map app hd] in E. unfold hex_digit, DOT in E. revert E. generalize (x / 16). intros y.
  destruct (y <? 10); lia.
Qed.

(** * Well formed stores *)

Definition rec_ok (a : acct) (p : PublicIdentity) (l : bool) : Prop :=
  exists f s, a_user a = Some f /\ flat f s /\ pid_wire p /\ a_cache a <> None /\
    forall k, mget s k = if eqb k (bs "identity") then Some (b64_encode (enc PublicIdentity_codec p))
                         else if eqb k (bs "listed") then (if l then Some (bs "1") else None) else None.
Definition home (n : bytes) (p : PublicIdentity) : Prop :=
  n = account_dir (PublicIdentity_Identity p) \/ n = disabled_dir (PublicIdentity_Identity p).
Definition store_ok (s : store) : Prop :=
  NoDup (mkeys s) /\ forall n a, mget s n = Some a -> exists p l, rec_ok a p l /\ home n p.

Lemma rec_ok_get a p l : rec_ok a p l ->
  identity_of a = Some p /\ (is_listed a <-> l = true) /\
  forall nick, find_entry nick a = if l then (if eqb (PublicIdentity_Nick p) nick then Found p else Next) else Next.
Proof.
  intros (f & s & U & (P & ND & C) & (W1 & W2 & W3) & _ & G).
  assert (Gi : mget s (bs "identity") = Some (b64_encode (enc PublicIdentity_codec p))) by (rewrite G, eqb_refl; reflexivity).
  assert (Gl : mget s (bs "listed") = if l then Some (bs "1") else None) by (rewrite G; reflexivity).
  assert (D : dec PublicIdentity_codec 0 (enc PublicIdentity_codec p) = Some (p, [])).
  { destruct good_PublicIdentity as [RT _]. pose proof (RT 0 p [] W1) as X. now rewrite app_nil_r in X. }
  split; [|split].
  - unfold identity_of, field. rewrite U, P. unfold IniFileProofs.lookup. cbn [mget]. rewrite eqb_refl, Gi.
    rewrite b64_round by auto. now rewrite D.
  - unfold is_listed, field. rewrite U, P. unfold IniFileProofs.lookup. cbn [mget]. rewrite eqb_refl, Gl.
    destruct l; split; congruence.
  - intros nick. unfold find_entry. rewrite U, P. cbv zeta.
    rewrite (flat_get _ s) by reflexivity. rewrite Gl. destruct l; [|reflexivity]. rewrite eqb_refl.
    rewrite (flat_get _ s) by reflexivity. rewrite Gi, b64_round by auto. now rewrite D.
Qed.

Lemma rec_ok_unique a p l p' l' : rec_ok a p l -> rec_ok a p' l' -> p = p' /\ l = l'.
Proof.
  intros A B. destruct (rec_ok_get _ _ _ A) as (A1 & A2 & _), (rec_ok_get _ _ _ B) as (B1 & B2 & _).
  split; [congruence|]. destruct l, l'; auto; [symmetry|]; tauto.
Qed.

(** * Find *)

Lemma find_in_spec s nick names : store_ok s ->
  StronglySorted lex_le names -> (forall n, In n names -> mget s n <> None) ->
  match find_in s nick names with
  | Some p => exists n, In n names /\ lists s n nick p /\
                forall n' p', In n' names -> lists s n' nick p' -> lex_leb n n' = true
  | None => forall n p, In n names -> ~ lists s n nick p
  end.
Proof.
  intros [ND OK]. induction names as [|n names IH]; intros S M; cbn [find_in]; [intros n p []|].
  inversion S; subst. assert (M' : forall n, In n names -> mget s n <> None) by (intros; apply M; now right).
  specialize (IH H1 M'). destruct (mget s n) as [a|] eqn:E; [|exfalso; apply (M n); [now left|auto]].
  destruct (OK n a E) as (p & l & R & _). destruct (rec_ok_get _ _ _ R) as (I & L & F). rewrite F.
  assert (Skip : (forall p', ~ lists s n nick p') ->
    match find_in s nick names with
    | Some p => exists n0, In n0 (n :: names) /\ lists s n0 nick p /\
                  forall n' p', In n' (n :: names) -> lists s n' nick p' -> lex_leb n0 n' = true
    | None => forall n0 p, In n0 (n :: names) -> ~ lists s n0 nick p
    end).
  { intros NL. destruct (find_in s nick names) as [q|].
    - destruct IH as (n0 & I0 & L0 & X). exists n0. split; [now right|]. split; auto.
      intros n' p' [<-|H'] L'; [now apply NL in L'|eauto].
    - intros n0 q [<-|H'] L'; [now apply NL in L'|]. eapply IH; eauto. }
  destruct l.
  - destruct (eqb_spec (PublicIdentity_Nick p) nick) as [En|En].
    + exists n. split; [now left|]. split; [exists a; repeat split; auto; now apply L|].
      intros n' p' [<-|H'] _; [apply lex_leb_refl|]. rewrite Forall_forall in H2. now apply H2.
    + apply Skip. intros p' (a' & E' & _ & I' & N'). rewrite E in E'. injection E' as <-. congruence.
  - apply Skip. intros p' (a' & E' & L' & _). rewrite E in E'. injection E' as <-. apply L in L'. discriminate.
Qed.

Lemma find_spec s nick : store_ok s ->
  match find s nick with
  | Some p => exists n, lists s n nick p /\ forall n' p', lists s n' nick p' -> lex_leb n n' = true
  | None => forall n p, ~ lists s n nick p
  end.
Proof.
  intros OK. unfold find. pose proof (find_in_spec s nick (lex_sort (mkeys s)) OK (lex_sort_sorted _)) as X.
  assert (P : forall n, In n (lex_sort (mkeys s)) <-> In n (mkeys s)).
  { intros n. split; apply Permutation_in; [|apply Permutation_sym]; apply lex_sort_perm. }
  assert (G : forall n nick p, lists s n nick p -> In n (lex_sort (mkeys s))).
  { intros n nk p (a & E & _). apply P. now apply mget_Some_keys in E. }
  lapply X.
  - clear X. intros X. destruct (find_in s nick (lex_sort (mkeys s))) as [p|].
    + destruct X as (n & _ & L & Y). exists n. split; auto. intros n' p' L'. eapply Y; eauto.
    + intros n p L. apply (X n p); eauto.
  - intros n H. apply P in H. intros E. now apply mget_None in E.
Qed.

(** * Steps keep stores well formed *)

Lemma store_ok_set s n a p l : store_ok s -> rec_ok a p l -> home n p -> store_ok (mset s n a).
Proof.
  intros [ND OK] R H. split; [now apply NoDup_mset|]. intros m b. rewrite mget_mset.
  destruct (eqb_spec m n) as [->|]; [injection 1 as <-; eauto|apply OK].
Qed.
Lemma store_ok_del s n : store_ok s -> store_ok (mdel s n).
Proof.
  intros [ND OK]. split; [now apply NoDup_mdel|]. intros m b. rewrite mget_mdel. destruct (eqb m n); [discriminate|apply OK].
Qed.

Lemma clean_identity : clean_key (bs "identity") /\ clean_key (bs "listed") /\ clean (bs "1").
Proof.
  assert (K : forall s, Forall (fun c => 97 <= c <= 122) s -> s <> [] -> clean_key s).
  { intros s F NE. split; [apply clean_visible; revert F; apply Forall_impl; intros; lia|]. split.
    - intros I. rewrite Forall_forall in F. specialize (F _ I). unfold EQ in F. lia.
    - destruct s; [congruence|]. inversion F; subst. unfold SEMI, HASH. lia. }
  split; [|split].
  - apply K; [|discriminate]. cbn. repeat (apply Forall_cons; [lia|]). constructor.
  - apply K; [|discriminate]. cbn. repeat (apply Forall_cons; [lia|]). constructor.
  - apply clean_visible. cbn. repeat (apply Forall_cons; [lia|]). constructor.
Qed.

Lemma wire_clean p : pid_wire p -> clean (b64_encode (enc PublicIdentity_codec p)).
Proof. intros (_ & W & _). now apply clean_b64. Qed.

Definition user_sec (s : section) (p : PublicIdentity) (l : bool) : Prop :=
  forall k, mget s k = if eqb k (bs "identity") then Some (b64_encode (enc PublicIdentity_codec p))
                       else if eqb k (bs "listed") then (if l then Some (bs "1") else None) else None.

Lemma write_user f t s0 s1 p l c : db_tables t = [([], s1)] -> db_dirty t = true -> NoDup (mkeys s1) -> clean_section s1 ->
  pid_wire p -> user_sec s1 p l ->
  flat f s0 -> (exists f', saved f t f') /\
  forall f', saved f t f' -> rec_ok {| a_user := Some f'; a_cache := Some c |} p l.
Proof.
  intros T D ND C W U F. destruct (saved_flat f t s1 s0 T ND C) as [E A]; [congruence|]. split; auto.
  intros f' S. destruct (A f' S) as (s' & Fl & G). exists f', s'. split; auto. split; auto. split; auto.
  split; [discriminate|]. intros k. rewrite G. apply U.
Qed.

Lemma clean_section_del s k : clean_section s -> clean_section (mdel s k).
Proof.
  intros C. apply Forall_forall. intros x H. unfold clean_section in C. rewrite Forall_forall in C. apply C.
  unfold mdel in H. now apply filter_In in H.
Qed.

(** Create: the outcome. *)
Lemma create_spec s pid force : store_ok s -> pid_wire pid ->
  (exists ok s', create s pid force ok s') /\
  forall ok s', create s pid force ok s' ->
  let n := account_dir (PublicIdentity_Identity pid) in
  (ok = true <-> (forall m p, ~ lists s m (PublicIdentity_Nick pid) p) /\ (mget s n = None \/ force = true)) /\
  if ok then exists a' l, s' = mset s n a' /\ rec_ok a' pid l /\
               match mget s n with
               | Some a => a_cache a' = a_cache a /\ (l = true <-> is_listed a)
               | None => a_cache a' = Some [] /\ l = false
               end
  else s' = s.
Proof.
  intros OK W. unfold create. set (n := account_dir (PublicIdentity_Identity pid)).
  pose proof (find_spec s (PublicIdentity_Nick pid) OK) as F.
  destruct (find s (PublicIdentity_Nick pid)) as [q|].
  - split; [eauto|]. intros ok s' [-> ->]. split; auto. split; [discriminate|]. intros [X _]. destruct F as (m & L & _). now apply X in L.
  - unfold mhas. destruct OK as [ND OK]. destruct clean_identity as (K1 & K2 & K3).
    destruct (mget s n) as [a|] eqn:E.
    + destruct force; cbn [andb negb].
      2:{ split; [eauto|]. intros ok s' [-> ->]. split; auto. split; [discriminate|]. intros [_ [X|X]]; discriminate. }
      destruct (OK n a E) as (p & l & R & H). destruct (rec_ok_get _ _ _ R) as (_ & L & _).
      destruct R as (f & s0 & U & (P & N0 & C0) & W0 & CA & G). unfold db_open. rewrite U, P.
      rewrite (flat_set _ s0) by reflexivity. destruct (a_cache a) as [c|] eqn:Ec; [|congruence].
      set (d := {| db_tables := [([], mset s0 (bs "identity") (b64_encode (enc PublicIdentity_codec pid)))];
                   db_dirty := true; db_created := db_created (opened [([], s0)] false) |}).
      destruct (write_user f d s0 (mset s0 (bs "identity") (b64_encode (enc PublicIdentity_codec pid))) pid l c) as [X1 X2]; auto.
      * now apply NoDup_mset.
      * apply clean_section_set; auto. now apply wire_clean.
      * intros k. rewrite mget_mset, G. now destruct (eqb k (bs "identity")).
      * now split.
      * split; [destruct X1; eauto 10|]. intros ok s' (-> & f' & S & ->). split.
        { split; auto. }
        exists {| a_user := Some f'; a_cache := Some c |}, l. split; auto. split; auto. split; auto. now rewrite L.
    + cbn [andb a_user a_cache db_open]. rewrite (flat_set _ []) by reflexivity.
      set (d := {| db_tables := [([], mset [] (bs "identity") (b64_encode (enc PublicIdentity_codec pid)))];
                   db_dirty := true; db_created := db_created ini_fresh |}).
      destruct (write_user (render [([], [])]) d [] (mset [] (bs "identity") (b64_encode (enc PublicIdentity_codec pid))) pid false []) as [X1 X2]; auto.
      * apply NoDup_mset. constructor.
      * apply clean_section_set; auto; [now apply wire_clean|constructor].
      * intros k. rewrite mget_mset. destruct (eqb k (bs "identity")); auto. now destruct (eqb k (bs "listed")).
      * apply render_fresh.
      * split; [destruct X1; eauto 10|]. intros ok s' (-> & f' & S & ->). split; [split; auto|].
        exists {| a_user := Some f'; a_cache := Some [] |}, false. auto.
Qed.

(** Push and Pull. *)
Definition list_op (up : bool) : inidb -> inidb * option ini_err :=
  if up then fun d => ini_set d [] (bs "listed") (bs "1") else fun d => ini_del d [] (bs "listed").
Lemma change_spec up s id : store_ok s ->
  (exists ok s', change_user s id (list_op up) ok s') /\
  forall ok s', change_user s id (list_op up) ok s' ->
  match mget s (account_dir id) with
  | None => ok = false /\ s' = s
  | Some a => ok = true /\ exists a' p l, s' = mset s (account_dir id) a' /\ rec_ok a p l /\ home (account_dir id) p /\
                rec_ok a' p up /\ a_cache a' = a_cache a
  end.
Proof.
  intros [ND OK]. unfold change_user. destruct (mget s (account_dir id)) as [a|] eqn:E; [|split; eauto].
  destruct (OK _ a E) as (p & l & R & H). pose proof R as R'.
  destruct R as (f & s0 & U & (P & N0 & C0) & W0 & CA & G). rewrite U, P. destruct clean_identity as (K1 & K2 & K3).
  destruct (a_cache a) as [c|] eqn:Ec; [|congruence].
  assert (X : exists s1, list_op up (opened [([], s0)] false) =
     ({| db_tables := [([], s1)]; db_dirty := true; db_created := db_created (opened [([], s0)] false) |}, None) /\
     NoDup (mkeys s1) /\ clean_section s1 /\ user_sec s1 p up).
  { destruct up; cbn [list_op]; [rewrite (flat_set _ s0) by reflexivity|rewrite (flat_del _ s0) by reflexivity]; eexists; (split; [reflexivity|]).
    - split; [now apply NoDup_mset|]. split; [now apply clean_section_set|]. intros k. rewrite mget_mset, G.
      destruct (eqb_spec k (bs "listed")) as [->|]; auto.
    - split; [now apply NoDup_mdel|]. split; [now apply clean_section_del|]. intros k. rewrite mget_mdel, G.
      destruct (eqb_spec k (bs "listed")) as [->|]; auto. }
  destruct X as (s1 & -> & N1 & C1 & U1).
  set (d := {| db_tables := [([], s1)]; db_dirty := true; db_created := db_created (opened [([], s0)] false) |}).
  destruct (write_user f d s0 s1 p up c) as [X1 X2]; auto; [now split|]. split; [destruct X1; eauto 10|].
  intros ok s' (-> & f' & S & ->). split; auto. exists {| a_user := Some f'; a_cache := Some c |}, p, l.
  repeat split; auto.
Qed.

Lemma rec_ok_cache a p l c : rec_ok a p l -> rec_ok {| a_user := a_user a; a_cache := Some c |} p l.
Proof. intros (f & s & U & F & W & CA & G). exists f, s. cbn. repeat split; try apply F; try apply W; auto; discriminate. Qed.

Lemma home_dir id p : home (account_dir id) p -> Forall is_byte id -> Forall is_byte (PublicIdentity_Identity p) ->
  id = PublicIdentity_Identity p.
Proof.
  intros [H|H] A B; [now apply hex_inj|]. now apply hex_no_dot in H.
Qed.
Lemma home_disabled id p : home (disabled_dir id) p -> Forall is_byte id -> Forall is_byte (PublicIdentity_Identity p) ->
  id = PublicIdentity_Identity p.
Proof.
  intros [H|H] A B; [symmetry in H; now apply hex_no_dot in H|]. injection H as H. now apply hex_inj.
Qed.

Lemma dirs_differ a b : Forall is_byte a -> account_dir a <> disabled_dir b.
Proof. intros F. now apply hex_no_dot. Qed.

(** Disable and Enable on the map of directories. *)
Lemma rename_get s a b d m : mget s a = Some d -> a <> b ->
  mget (rename s a b) m = if eqb m b then Some d else if eqb m a then None else mget s m.
Proof.
  intros E NE. unfold rename. rewrite E, mget_mset. destruct (eqb m b); auto. rewrite mget_mdel. reflexivity.
Qed.

Lemma step_ok s o ok s' : store_ok s -> op_wire o -> acct_step s o ok s' -> store_ok s'.
Proof.
  intros OK W S. destruct o; cbn [acct_step op_wire] in *.
  - destruct (create_spec s pid force OK W) as [_ X]. destruct (X _ _ S) as [_ Y]. destruct ok; [|now subst].
    destruct Y as (a' & l & -> & R & _). eapply store_ok_set; eauto. now left.
  - destruct (change_spec true s id OK) as [_ X]. specialize (X _ _ S). destruct (mget s (account_dir id)).
    + destruct X as (_ & a' & p & l & -> & _ & H & R & _). eapply store_ok_set; eauto.
    + destruct X as [_ ->]. auto.
  - destruct (change_spec false s id OK) as [_ X]. specialize (X _ _ S). destruct (mget s (account_dir id)).
    + destruct X as (_ & a' & p & l & -> & _ & H & R & _). eapply store_ok_set; eauto.
    + destruct X as [_ ->]. auto.
  - unfold disable, mhas in S. destruct (mget s (disabled_dir id)); [injection S as -> _; auto|].
    destruct (mget s (account_dir id)) as [a|] eqn:E; [|injection S as -> _; auto].
    injection S as -> _. unfold rename. rewrite E. pose proof OK as [_ OK']. destruct (OK' _ _ E) as (p & l & R & H).
    eapply store_ok_set; [now apply store_ok_del|exact R|]. right. pose proof R as (_ & _ & _ & _ & (_ & _ & B) & _).
    now rewrite (home_dir id p).
  - unfold enable, mhas in S. destruct (mget s (disabled_dir id)) as [a|] eqn:E; [|injection S as -> _; auto].
    destruct (mget s (account_dir id)); [injection S as -> _; auto|].
    injection S as -> _. unfold rename. rewrite E. pose proof OK as [_ OK']. destruct (OK' _ _ E) as (p & l & R & H).
    eapply store_ok_set; [now apply store_ok_del|exact R|]. left. pose proof R as (_ & _ & _ & _ & (_ & _ & B) & _).
    now rewrite (home_disabled id p).
  - unfold deliver in S. destruct (mget s (account_dir to)) as [a|] eqn:E; [|injection S as -> _; auto].
    destruct (a_cache a) as [c|]; [|injection S as -> _; auto]. destruct (mhas c name); [injection S as -> _; auto|].
    apply pair_equal_spec in S as [-> _]. pose proof OK as [_ OK']. destruct (OK' _ _ E) as (p & l & R & H).
    eapply store_ok_set; eauto. eapply rec_ok_cache; eauto.
  - unfold delete in S. destruct (mget s (account_dir id)) as [a|] eqn:E; [|injection S as -> _; auto].
    destruct (a_cache a) as [c|]; [|injection S as -> _; auto]. destruct (mhas c name); [|injection S as -> _; auto].
    apply pair_equal_spec in S as [-> _]. pose proof OK as [_ OK']. destruct (OK' _ _ E) as (p & l & R & H).
    eapply store_ok_set; eauto. eapply rec_ok_cache; eauto.
Qed.

Lemma run_ok os : forall s s', store_ok s -> Forall op_wire os -> acct_run s os s' -> store_ok s'.
Proof.
  induction os as [|o os IH]; intros s s' OK W R; inversion R; subst; auto. inversion W; subst.
  eapply IH; [|eassumption|eassumption]. eapply step_ok; eauto.
Qed.
Lemma empty_ok : store_ok [].
Proof. split; [constructor|discriminate]. Qed.
