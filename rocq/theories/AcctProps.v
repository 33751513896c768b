(** C29 and C30: accounts on the server. *)
From Verif Require Import Base HexModel IniModel IniMemProofs IniFileProofs IniDiskProofs XdrModel XdrProofs RpcModel RpcProofs
  StrconvModel ServerDbModel ServerDbProofs AcctModel AcctProofs BlobProps.
Local Open Scope N_scope.

(** * C29: disabling and enabling *)

Lemma hex_decode_length s : forall b, hex_decode s = Some b -> length s = (2 * length b)%nat.
Proof.
  induction s as [s IH] using (well_founded_induction (Wf_nat.well_founded_ltof _ (@length N))). intros b.
  destruct s as [|x [|y s]]; cbn; try discriminate; [now intros [= <-]|].
  destruct (from_hex_char x), (from_hex_char y); try discriminate. destruct (hex_decode s) as [c|] eqn:E; try discriminate.
  intros [= <-]. apply IH in E; [|unfold Wf_nat.ltof; cbn; lia]. cbn. lia.
Qed.

Theorem C29_disable s id s' ok : Forall is_byte id -> disable s id = (s', ok) ->
  (ok = true <-> mget s (account_dir id) <> None /\ mget s (disabled_dir id) = None) /\
  (ok = false -> s' = s) /\
  (ok = true ->
    mget s' (disabled_dir id) = mget s (account_dir id) /\ mget s' (account_dir id) = None /\
    forall n, n <> account_dir id -> n <> disabled_dir id -> mget s' n = mget s n).
Proof.
  intros B. pose proof (dirs_differ id id B) as NE. unfold disable, mhas.
  destruct (mget s (disabled_dir id)) as [d|] eqn:D.
  { intros [= <- <-]. split; [split; [discriminate|intros [_ X]; discriminate]|]. split; [auto|discriminate]. }
  destruct (mget s (account_dir id)) as [a|] eqn:A.
  - intros [= <- <-]. split; [split; [split; [discriminate|auto]|auto]|]. split; [discriminate|]. intros _.
    split; [rewrite (rename_get _ _ _ a), eqb_refl; auto|].
    split; [rewrite (rename_get _ _ _ a), eqb_refl by auto; apply eqb_neq in NE; now rewrite NE|].
    intros n N1 N2. rewrite (rename_get _ _ _ a) by auto. apply eqb_neq in N1, N2. now rewrite N1, N2.
  - intros [= <- <-]. split; [split; [discriminate|intros [X _]; congruence]|]. split; [auto|discriminate].
Qed.
Print Assumptions C29_disable.

Theorem C29_enable s id s' ok : Forall is_byte id -> enable s id = (s', ok) ->
  (ok = true <-> mget s (disabled_dir id) <> None /\ mget s (account_dir id) = None) /\
  (ok = false -> s' = s) /\
  (ok = true ->
    mget s' (account_dir id) = mget s (disabled_dir id) /\ mget s' (disabled_dir id) = None /\
    forall n, n <> account_dir id -> n <> disabled_dir id -> mget s' n = mget s n).
Proof.
  intros B. pose proof (dirs_differ id id B) as NE. unfold enable, mhas.
  destruct (mget s (disabled_dir id)) as [d|] eqn:D.
  2:{ intros [= <- <-]. split; [split; [discriminate|intros [X _]; congruence]|]. split; [auto|discriminate]. }
  destruct (mget s (account_dir id)) as [a|] eqn:A.
  - intros [= <- <-]. split; [split; [discriminate|intros [_ X]; discriminate]|]. split; [auto|discriminate].
  - intros [= <- <-]. split; [split; [split; [discriminate|auto]|auto]|]. split; [discriminate|]. intros _.
    split; [rewrite (rename_get _ _ _ d), eqb_refl; auto|].
    split; [rewrite (rename_get _ _ _ d), eqb_refl by auto; assert (X : disabled_dir id <> account_dir id) by auto;
            apply eqb_neq in X; now rewrite X|].
    intros n N1 N2. rewrite (rename_get _ _ _ d) by auto. apply eqb_neq in N1, N2. now rewrite N1, N2.
Qed.
Print Assumptions C29_enable.

(** A disabled account that nobody has created a second time takes part in nothing. *)
Theorem C29_stopped s id : mget s (disabled_dir id) <> None ->
  login_check s id = Unwelcomed /\
  (mget s (account_dir id) = None ->
    (forall from p cl name rcv, deliver s id from p cl name rcv = (s, false)) /\
    (forall name, delete s id name = (s, false)) /\
    (forall ok s', push s id ok s' -> ok = false /\ s' = s) /\
    (forall ok s', pull s id ok s' -> ok = false /\ s' = s)).
Proof.
  intros D. split; [unfold login_check, disabled, mhas; destruct (mget s (disabled_dir id)); congruence|].
  intros A. unfold deliver, delete, push, pull, change_user. rewrite A. auto.
Qed.
Print Assumptions C29_stopped.

Definition touches (id : bytes) (o : acct_op) : Prop :=
  match o with
  | OCreate pid _ => PublicIdentity_Identity pid = id
  | OEnable i => i = id
  | _ => False
  end.

Lemma disabled_step s o ok s' id a : store_ok s -> op_wire o -> Forall is_byte id -> ~ touches id o ->
  acct_step s o ok s' -> mget s (disabled_dir id) = Some a -> mget s (account_dir id) = None ->
  mget s' (disabled_dir id) = Some a /\ mget s' (account_dir id) = None.
Proof.
  intros OK W B T S D A.
  assert (Other : forall i x, Forall is_byte i -> i <> id ->
            mget (mset s (account_dir i) x) (disabled_dir id) = Some a /\ mget (mset s (account_dir i) x) (account_dir id) = None).
  { intros i x Bi NE. rewrite !mget_mset_ne; auto.
    - intros X. apply NE. symmetry. now apply hex_inj.
    - intros X. symmetry in X. now apply dirs_differ in X. }
  assert (Same : forall i, mget s (account_dir i) <> None -> i <> id) by congruence.
  destruct o; cbn [acct_step op_wire touches] in *.
  - destruct (create_spec s pid force OK W) as [_ X]. destruct (X _ _ S) as [_ Y]. destruct ok; [|now subst].
    destruct Y as (a' & l & -> & _). apply Other; auto. apply W.
  - destruct (change_spec true s id0 OK) as [_ X]. specialize (X _ _ S). destruct (mget s (account_dir id0)) eqn:E.
    + destruct X as (_ & a' & p & l & -> & _). apply Other; auto. apply Same. congruence.
    + destruct X as [_ ->]. auto.
  - destruct (change_spec false s id0 OK) as [_ X]. specialize (X _ _ S). destruct (mget s (account_dir id0)) eqn:E.
    + destruct X as (_ & a' & p & l & -> & _). apply Other; auto. apply Same. congruence.
    + destruct X as [_ ->]. auto.
  - symmetry in S. destruct (list_eq_dec N.eq_dec id0 id) as [->|NE].
    + apply C29_disable in S as (X & Y & _); auto. destruct ok; [|rewrite (Y eq_refl); auto].
      destruct X as [X _]. destruct (X eq_refl) as [_ Z]. congruence.
    + apply C29_disable in S as (_ & Y & Z); auto. destruct ok; [|rewrite (Y eq_refl); auto].
      destruct (Z eq_refl) as (_ & _ & O). rewrite !O; auto.
      * intros X. apply NE. symmetry. now apply hex_inj.
      * now apply dirs_differ.
      * intros X. symmetry in X. now apply dirs_differ in X.
      * intros X. injection X as X. apply NE. symmetry. now apply hex_inj.
  - symmetry in S. apply C29_enable in S as (_ & Y & Z); auto. destruct ok; [|rewrite (Y eq_refl); auto].
    destruct (Z eq_refl) as (_ & _ & O). rewrite !O; auto.
    + intros X. apply T. symmetry. now apply hex_inj.
    + now apply dirs_differ.
    + intros X. symmetry in X. now apply dirs_differ in X.
    + intros X. injection X as X. apply T. symmetry. now apply hex_inj.
  - unfold deliver in S. destruct (mget s (account_dir to)) as [b|] eqn:E; [|injection S as -> _; auto].
    destruct (a_cache b) as [c|]; [|injection S as -> _; auto]. destruct (mhas c name); [injection S as -> _; auto|].
    apply pair_equal_spec in S as [-> _]. apply Other; auto. apply Same. congruence.
  - unfold delete in S. destruct (mget s (account_dir id0)) as [b|] eqn:E; [|injection S as -> _; auto].
    destruct (a_cache b) as [c|]; [|injection S as -> _; auto]. destruct (mhas c name); [|injection S as -> _; auto].
    apply pair_equal_spec in S as [-> _]. apply Other; auto. apply Same. congruence.
Qed.

(** Whatever happens on the server between disabling and enabling, short of
    creating or enabling the account, it can not log in, and enabling it brings
    the whole directory back as it was. *)
Theorem C29_round s0 os0 s id a s1 os s2 :
  acct_run s0 os0 s -> s0 = [] -> Forall op_wire os0 -> Forall is_byte id ->
  mget s (account_dir id) = Some a -> disable s id = (s1, true) ->
  acct_run s1 os s2 -> Forall op_wire os -> (forall o, In o os -> ~ touches id o) ->
  login_check s2 id = Unwelcomed /\
  exists s3, enable s2 id = (s3, true) /\ mget s3 (account_dir id) = Some a /\
    login_check s3 id = Welcomed /\
    forall n, n <> account_dir id -> n <> disabled_dir id -> mget s3 n = mget s2 n.
Proof.
  intros R0 -> W0 B A D R W T. pose proof (run_ok _ _ _ empty_ok W0 R0) as OK.
  assert (OK1 : store_ok s1) by (apply (step_ok s (ODisable id) true s1); auto; now symmetry).
  apply C29_disable in D as (_ & _ & D); auto. destruct (D eq_refl) as (D1 & D2 & _). rewrite A in D1. clear D.
  assert (X : mget s2 (disabled_dir id) = Some a /\ mget s2 (account_dir id) = None).
  { clear R0 OK A. induction R; auto. inversion W; subst.
    destruct (disabled_step _ _ _ _ _ _ OK1 H2 B (T o (or_introl eq_refl)) H D1 D2) as [E1 E2].
    apply IHR; auto; [intros; apply T; now right|eapply step_ok; eauto]. }
  destruct X as [X1 X2]. destruct (C29_stopped s2 id) as [L _]; [congruence|]. split; auto.
  destruct (enable s2 id) as [s3 ok] eqn:E. pose proof (C29_enable _ _ _ _ B E) as (E1 & _ & E3).
  assert (ok = true) as -> by (apply E1; split; congruence). destruct (E3 eq_refl) as (F1 & F2 & F3).
  exists s3. split; auto. split; [congruence|]. split; auto.
  unfold login_check, disabled, enabled, mhas. rewrite F2, F1, X1. reflexivity.
Qed.
Print Assumptions C29_round.

(** The socket request crashes the server exactly if the string is the hexadecimal
    form of something that is not 32 bytes long; any other string either is no
    hexadecimal number and changes nothing, or has the effect of Disable. *)
Theorem C29_socket s sessions ident :
  (socket_disable s sessions ident = Panic <->
    (exists id, hex_decode ident = Some id) /\ length ident <> 64%nat) /\
  (socket_enable s ident = Panic <->
    (exists id, hex_decode ident = Some id) /\ length ident <> 64%nat) /\
  (hex_decode ident = None -> exists c, socket_disable s sessions ident = Ok (s, false, c)) /\
  (forall id, hex_decode ident = Some id -> length ident = 64%nat ->
    (exists c, socket_disable s sessions ident = Ok (disable s id, c)) /\ socket_enable s ident = Ok (enable s id)).
Proof.
  unfold socket_disable, socket_enable. destruct (hex_decode ident) as [id|] eqn:E.
  - pose proof (hex_decode_length _ _ E) as L. destruct (Nat.eqb_spec (length id) 32) as [N|N]; cbn [negb].
    + destruct (disable s id) as [s' ok] eqn:D. repeat split; try discriminate.
      * intros [_ X]. lia.
      * intros [_ X]. lia.
      * injection H as <-. exists (mem ident sessions). now rewrite D.
      * now injection H as <-.
    + repeat split; try discriminate; try (eexists; reflexivity); try lia.
  - repeat split; try discriminate; try (intros [[? X] _]; discriminate). eexists; reflexivity.
Qed.
Print Assumptions C29_socket.

(** The session map is keyed with lower case strings, so the session of the
    disabled account is closed exactly if the request is in lower case. *)
Theorem C29_session_closed s ids ident id : Forall (Forall is_byte) ids -> Forall is_byte id -> In id ids ->
  hex_decode ident = Some id -> length id = 32%nat ->
  exists s' ok closed, socket_disable s (map hex_encode ids) ident = Ok (s', ok, closed) /\
    (closed = true <-> map lower ident = ident).
Proof.
  intros Bs B I D L. unfold socket_disable. rewrite D, L. cbn [Nat.eqb negb]. destruct (disable s id) as [s' ok].
  exists s', ok, (mem ident (map hex_encode ids)). split; auto. pose proof (proj1 (hex_decode_lower _ _ _ (le_n _) D)) as X.
  rewrite mem_In. split.
  - intros H. apply in_map_iff in H as (j & <- & Ij). rewrite Forall_forall in Bs. specialize (Bs _ Ij).
    rewrite hex_round in D by auto. injection D as ->. auto.
  - intros E. rewrite E in X. rewrite X. now apply in_map.
Qed.
Print Assumptions C29_session_closed.

(** * C22: what is in the mailboxes *)

Definition letter (s : store) (id n : bytes) : option bytes :=
  match mget s (account_dir id) with
  | Some a => match a_cache a with Some c => mget c n | None => None end
  | None => None
  end.
Definition user_file (s : store) (d : bytes) : option (option bytes) :=
  match mget s d with Some a => Some (a_user a) | None => None end.

(** A delivery adds one file to one mailbox, or changes nothing. *)
Theorem C22_deliver s to from payload clear name rcv s' ok : Forall is_byte to ->
  deliver s to from payload clear name rcv = (s', ok) ->
  (ok = false -> s' = s) /\
  (ok = true -> letter s to name = None /\ (forall d, user_file s' d = user_file s d) /\
     (forall n, letter s' to n = if eqb n name then Some (enc DiskMessage_codec (mkDiskMessage from rcv payload clear)) else letter s to n) /\
     (forall id n, Forall is_byte id -> id <> to -> letter s' id n = letter s id n)).
Proof.
  intros B E. unfold deliver in E. destruct (mget s (account_dir to)) as [a|] eqn:A; [|injection E as <- <-; split; [auto|discriminate]].
  destruct (a_cache a) as [c|] eqn:Ca; [|injection E as <- <-; split; [auto|discriminate]].
  unfold mhas in E. destruct (mget c name) eqn:G; apply pair_equal_spec in E as [<- <-]; (split; [auto; discriminate|]); [discriminate|].
  intros _. unfold letter, user_file. rewrite A, Ca. split; [exact G|]. split; [|split].
  - intros d. rewrite mget_mset. destruct (eqb_spec d (account_dir to)) as [->|]; auto. now rewrite A.
  - intros n. rewrite mget_mset_eq. cbn [a_cache]. rewrite mget_mset. destruct (eqb n name); auto.
  - intros id n Bi Ne. rewrite mget_mset. destruct (eqb_spec (account_dir id) (account_dir to)) as [X|]; auto.
    exfalso. apply Ne. apply hex_inj; auto.
Qed.
Print Assumptions C22_deliver.

(** Deleting removes one file from one mailbox, or changes nothing. *)
Theorem C22_delete s id name s' ok : Forall is_byte id -> delete s id name = (s', ok) ->
  (ok = true <-> letter s id name <> None) /\ (forall d, user_file s' d = user_file s d) /\
  (forall n, letter s' id n = if eqb n name then None else letter s id n) /\
  (forall id' n, Forall is_byte id' -> id' <> id -> letter s' id' n = letter s id' n).
Proof.
  intros B E. unfold delete in E.
  assert (Same : (s, false) = (s', ok) -> letter s id name = None ->
    (ok = true <-> letter s id name <> None) /\ (forall d, user_file s' d = user_file s d) /\
    (forall n, letter s' id n = if eqb n name then None else letter s id n) /\
    (forall id' n, Forall is_byte id' -> id' <> id -> letter s' id' n = letter s id' n)).
  { intros X L. injection X as <- <-. split; [split; [discriminate|congruence]|]. split; [auto|]. split; auto.
    intros n. destruct (eqb_spec n name) as [->|]; auto. }
  unfold letter in Same at 1. destruct (mget s (account_dir id)) as [a|] eqn:A; [|auto]. destruct (a_cache a) as [c|] eqn:Ca; [|auto].
  unfold mhas in E. destruct (mget c name) eqn:G; [|auto]. clear Same. apply pair_equal_spec in E as [<- <-].
  unfold letter, user_file. rewrite A, Ca, G. split; [split; [discriminate|auto]|]. split; [|split].
  - intros d. rewrite mget_mset. destruct (eqb_spec d (account_dir id)) as [->|]; auto. now rewrite A.
  - intros n. rewrite mget_mset_eq. cbn [a_cache]. apply mget_mdel.
  - intros id' n Bi Ne. rewrite mget_mset. destruct (eqb_spec (account_dir id') (account_dir id)) as [X|]; auto.
    exfalso. apply Ne. apply hex_inj; auto.
Qed.
Print Assumptions C22_delete.

Example C22_store_case :
  let s := [(account_dir [1], {| a_user := None; a_cache := Some [([48], [9])] |}); (account_dir [2], {| a_user := None; a_cache := Some [] |})] in
  let s1 := fst (deliver s [1] (repeat 3 32) [7] true [49] 5%Z) in
  let s2 := fst (delete s1 [1] [48]) in
  snd (deliver s [1] (repeat 3 32) [7] true [49] 5%Z) = true /\ snd (deliver s1 [1] (repeat 3 32) [7] true [49] 5%Z) = false /\
  snd (delete s1 [1] [48]) = true /\ letter s2 [1] [48] = None /\ letter s2 [1] [49] <> None /\ letter s2 [2] [49] = None.
Proof. vm_compute. repeat split; discriminate. Qed.

(** * C30: nicks *)

(** Every record a history of the server leaves behind can be read, and names the
    account whose directory it is in. *)
Theorem C30_readable os s n a : acct_run [] os s -> Forall op_wire os -> mget s n = Some a ->
  exists p, identity_of a = Some p /\
    (n = hex_encode (PublicIdentity_Identity p) \/ n = 46 :: hex_encode (PublicIdentity_Identity p)).
Proof.
  intros R W G. pose proof (run_ok _ _ _ empty_ok W R) as [_ OK]. destruct (OK _ _ G) as (p & l & Rc & H).
  destruct (rec_ok_get _ _ _ Rc) as (I & _). exists p. split; auto.
Qed.
Print Assumptions C30_readable.

(** Find returns the listed account with the nick whose directory comes first, and
    fails exactly if there is none. *)
Theorem C30_find os s nick : acct_run [] os s -> Forall op_wire os ->
  match find s nick with
  | Some p => exists n, lists s n nick p /\ forall n' p', lists s n' nick p' -> lex_leb n n' = true
  | None => forall n p, ~ lists s n nick p
  end.
Proof. intros R W. apply find_spec. eapply run_ok; eauto. apply empty_ok. Qed.
Print Assumptions C30_find.

Theorem C30_create os s pid force : acct_run [] os s -> Forall op_wire os -> pid_wire pid ->
  let n := hex_encode (PublicIdentity_Identity pid) in
  (exists ok s', create s pid force ok s') /\
  forall ok s', create s pid force ok s' ->
  (ok = true <-> (forall m p, ~ lists s m (PublicIdentity_Nick pid) p) /\ (mget s n = None \/ force = true)) /\
  (ok = false -> s' = s) /\
  (ok = true -> (forall m, m <> n -> mget s' m = mget s m) /\
    exists a', mget s' n = Some a' /\ identity_of a' = Some pid /\
      match mget s n with
      | Some a => a_cache a' = a_cache a /\ (is_listed a' <-> is_listed a)
      | None => a_cache a' = Some [] /\ ~ is_listed a'
      end).
Proof.
  intros R W Wp n. pose proof (run_ok _ _ _ empty_ok W R) as OK. destruct (create_spec s pid force OK Wp) as [E X].
  split; auto. intros ok s' C. destruct (X _ _ C) as [Y Z]. split; auto. destruct ok; split; auto; try discriminate.
  intros _. destruct Z as (a' & l & -> & Rc & K). unfold account_dir in *. fold n in K |- *.
  split; [intros; now apply mget_mset_ne|]. exists a'. split; [apply mget_mset_eq|].
  destruct (rec_ok_get _ _ _ Rc) as (I & L & _). split; auto. destruct (mget s n) as [a|].
  - destruct K as [K1 K2]. split; auto. rewrite L, K2. reflexivity.
  - destruct K as [K1 ->]. split; auto. rewrite L. discriminate.
Qed.
Print Assumptions C30_create.

(** Listing and unlisting an account changes nothing else. *)
Theorem C30_list os s id (up : bool) : acct_run [] os s -> Forall op_wire os -> 
  (exists (ok : bool) (s' : store), (if up then push s id else pull s id) ok s') /\
  forall (ok : bool) (s' : store), (if up then push s id else pull s id) ok s' ->
  (ok = true <-> mget s (hex_encode id) <> None) /\
  (forall m, m <> hex_encode id -> mget s' m = mget s m) /\
  forall a, mget s (hex_encode id) = Some a ->
    exists a', mget s' (hex_encode id) = Some a' /\ identity_of a' = identity_of a /\ a_cache a' = a_cache a /\
      (is_listed a' <-> up = true).
Proof.
  intros R W. pose proof (run_ok _ _ _ empty_ok W R) as OK.
  assert (E : (if up then push s id else pull s id) = change_user s id (list_op up)) by now destruct up.
  rewrite E. destruct (change_spec up s id OK) as [X1 X2]. split; auto. intros ok s' C. specialize (X2 _ _ C).
  unfold account_dir in X2. destruct (mget s (hex_encode id)) as [a|].
  - destruct X2 as (-> & a' & p & l & -> & R1 & _ & R2 & CA). split; [split; auto; discriminate|].
    split; [intros; now apply mget_mset_ne|]. intros b [= <-]. exists a'. split; [apply mget_mset_eq|].
    destruct (rec_ok_get _ _ _ R1) as (I1 & _), (rec_ok_get _ _ _ R2) as (I2 & L2 & _). repeat split; auto; congruence || tauto.
  - destruct X2 as (-> & ->). split; [split; [discriminate|congruence]|]. split; auto. discriminate.
Qed.
Print Assumptions C30_list.

(** [n] is an account, listed or not, with this nick. *)
Definition named (s : store) (n nick : bytes) : Prop :=
  exists a p, mget s n = Some a /\ identity_of a = Some p /\ PublicIdentity_Nick p = nick.
Definition unique (s : store) : Prop := forall m n nick, named s m nick -> named s n nick -> m = n.

(** If every account that has the requested nick is listed whenever an account is
    created, all nicks differ, even those of forced creations, and through
    disabling, enabling and unlisting. *)
Lemma named_rec s n nick p l a : mget s n = Some a -> rec_ok a p l -> named s n nick <-> PublicIdentity_Nick p = nick.
Proof.
  intros G R. destruct (rec_ok_get _ _ _ R) as (I & _). split.
  - intros (b & q & G' & I' & N). congruence.
  - intros N. exists a, p. auto.
Qed.

Lemma unique_set s n a p a' p' l l' : unique s -> mget s n = Some a -> rec_ok a p l -> rec_ok a' p' l' ->
  PublicIdentity_Nick p = PublicIdentity_Nick p' -> unique (mset s n a').
Proof.
  intros U G R R' E.
  assert (X : forall m nick, named (mset s n a') m nick -> named s m nick).
  { intros m nick (b & q & Gb & Ib & Nb). rewrite mget_mset in Gb. destruct (eqb_spec m n) as [->|].
    - injection Gb as <-. apply (named_rec _ _ _ _ _ _ G R). rewrite E. destruct (rec_ok_get _ _ _ R') as (I' & _). congruence.
    - exists b, q. auto. }
  intros m m' nick H H'. eapply U; eauto.
Qed.

Lemma unique_rename s a b d : unique s -> mget s a = Some d -> mget s b = None -> a <> b -> unique (rename s a b).
Proof.
  intros U G Gb NE.
  assert (X : forall m nick, named (rename s a b) m nick -> m <> a /\ (m = b /\ named s a nick \/ m <> b /\ named s m nick)).
  { intros m nick (c & q & Gc & Ic & Nc). rewrite (rename_get _ _ _ d) in Gc by auto. destruct (eqb_spec m b) as [->|N1].
    - injection Gc as <-. split; auto. left. split; auto. exists d, q. auto.
    - destruct (eqb_spec m a) as [->|N2]; [discriminate|]. split; auto. right. split; auto. exists c, q. auto. }
  intros m n nick H1 H2. destruct (X _ _ H1) as (A1 & [[-> B1]|[C1 B1]]), (X _ _ H2) as (A2 & [[-> B2]|[C2 B2]]); auto.
  - destruct (A2 (U _ _ _ B2 B1)).
  - destruct (A1 (U _ _ _ B1 B2)).
  - eapply U; eauto.
Qed.

Theorem C30_unique os s :
  acct_run [] os s -> Forall op_wire os ->
  (forall os1 pid force os2 s1, os = os1 ++ OCreate pid force :: os2 -> acct_run [] os1 s1 ->
     forall n, named s1 n (PublicIdentity_Nick pid) -> exists p, lists s1 n (PublicIdentity_Nick pid) p) ->
  unique s.
Proof.
  intros R W C.
  assert (G : forall os pre s0 s, acct_run [] pre s0 -> acct_run s0 os s -> store_ok s0 -> Forall op_wire os -> unique s0 ->
    (forall os1 pid force os2 s1, pre ++ os = os1 ++ OCreate pid force :: os2 -> acct_run [] os1 s1 ->
     forall n, named s1 n (PublicIdentity_Nick pid) -> exists p, lists s1 n (PublicIdentity_Nick pid) p) -> unique s).
  2:{ apply (G os [] [] s); auto; [constructor|apply empty_ok|]. intros m n nick (a & p & X & _). discriminate. }
  clear. induction os as [|o os IH]; intros pre s0 s P R OK W U C; inversion R as [|? ? ok s1 ? ? H2 H4]; subst; auto. inversion W as [|? ? H1 H3]; subst.
  apply (IH (pre ++ [o]) s1 s); auto.
  - clear -P H2. induction P; cbn; [econstructor; [eassumption|constructor]|]. econstructor; eauto.
  - eapply step_ok; eauto.
  - clear IH H4. destruct o; cbn [acct_step op_wire] in *.
    + destruct (create_spec s0 pid force OK H1) as [_ X]. destruct (X _ _ H2) as [Y Z]. destruct ok; [|now subst].
      destruct Y as [Y _]. destruct (Y eq_refl) as [NL _]. destruct Z as (a' & l & -> & Rc & _).
      assert (NN : forall n, ~ named s0 n (PublicIdentity_Nick pid)).
      { intros n Hn. destruct (C pre pid force os s0 eq_refl P n Hn) as [p L]. now apply NL in L. }
      set (n := account_dir (PublicIdentity_Identity pid)).
      assert (Q : forall m nick, named (mset s0 n a') m nick -> m = n /\ nick = PublicIdentity_Nick pid \/ m <> n /\ named s0 m nick).
      { intros m nick (b & q & Gb & Ib & Nb). rewrite mget_mset in Gb. destruct (eqb_spec m n) as [->|]; [left|right].
        - injection Gb as <-. destruct (rec_ok_get _ _ _ Rc) as (I & _). split; congruence.
        - split; auto. exists b, q. auto. }
      intros m m' nick H H'. destruct (Q _ _ H) as [[-> ->]|[N1 K1]], (Q _ _ H') as [[-> E]|[N2 K2]]; auto.
      * now apply NN in K2.
      * rewrite E in K1. now apply NN in K1.
      * eapply U; eauto.
    + destruct (change_spec true s0 id OK) as [_ X]. specialize (X _ _ H2). destruct (mget s0 (account_dir id)) eqn:E.
      * destruct X as (_ & a' & p & l & -> & R1 & _ & R2 & _). eapply unique_set; eauto.
      * destruct X as [_ ->]. auto.
    + destruct (change_spec false s0 id OK) as [_ X]. specialize (X _ _ H2). destruct (mget s0 (account_dir id)) eqn:E.
      * destruct X as (_ & a' & p & l & -> & R1 & _ & R2 & _). eapply unique_set; eauto.
      * destruct X as [_ ->]. auto.
    + unfold disable, mhas in H2. destruct (mget s0 (disabled_dir id)) eqn:D; [injection H2 as -> _; auto|].
      destruct (mget s0 (account_dir id)) as [a|] eqn:E; [|injection H2 as -> _; auto].
      injection H2 as -> _. eapply unique_rename; eauto. now apply dirs_differ.
    + unfold enable, mhas in H2. destruct (mget s0 (disabled_dir id)) as [a|] eqn:E; [|injection H2 as -> _; auto].
      destruct (mget s0 (account_dir id)) eqn:D; [injection H2 as -> _; auto|].
      injection H2 as -> _. eapply unique_rename; eauto. intros X. symmetry in X. now apply dirs_differ in X.
    + unfold deliver in H2. destruct (mget s0 (account_dir to)) as [a|] eqn:E; [|injection H2 as -> _; auto].
      destruct (a_cache a) as [c|]; [|injection H2 as -> _; auto]. destruct (mhas c name); [injection H2 as -> _; auto|].
      apply pair_equal_spec in H2 as [-> _]. destruct OK as [_ OK]. destruct (OK _ _ E) as (p & l & Rc & _).
      eapply unique_set; eauto. eapply rec_ok_cache; eauto.
    + unfold delete in H2. destruct (mget s0 (account_dir id)) as [a|] eqn:E; [|injection H2 as -> _; auto].
      destruct (a_cache a) as [c|]; [|injection H2 as -> _; auto]. destruct (mhas c name); [|injection H2 as -> _; auto].
      apply pair_equal_spec in H2 as [-> _]. destruct OK as [_ OK]. destruct (OK _ _ E) as (p & l & Rc & _).
      eapply unique_set; eauto. eapply rec_ok_cache; eauto.
  - intros os1 pid force os2 s2 E. rewrite <- app_assoc in E. cbn in E. eapply C; eauto.
Qed.
Print Assumptions C30_unique.

(** Without that condition it fails: two accounts of the same nick can be created
    one after the other if the first has not logged in in between, and once both
    have logged in both are listed.  The one whose identity comes first is then the
    one that is found, even if the other was found before. *)
Theorem C30_unique_refuted p1 p2 : pid_wire p1 -> pid_wire p2 ->
  PublicIdentity_Nick p1 = PublicIdentity_Nick p2 -> PublicIdentity_Identity p1 <> PublicIdentity_Identity p2 ->
  let nick := PublicIdentity_Nick p1 in
  let id1 := PublicIdentity_Identity p1 in let id2 := PublicIdentity_Identity p2 in
  exists s1 s2, acct_run [] [OCreate p1 false; OCreate p2 false; OPush id1] s1 /\ acct_step s1 (OPush id2) true s2 /\
    find s1 nick = Some p1 /\
    lists s2 (hex_encode id1) nick p1 /\ lists s2 (hex_encode id2) nick p2 /\
    (lex_leb (hex_encode id2) (hex_encode id1) = true -> find s2 nick = Some p2).
Proof.
  intros W1 W2 EN NE nick id1 id2.
  assert (HN : hex_encode id1 <> hex_encode id2) by (intros X; apply hex_inj in X; auto; [apply W1|apply W2]).
  destruct (create_spec [] p1 false empty_ok W1) as [(ok & sa & Ca) Sa]. destruct (Sa _ _ Ca) as [Oa Xa].
  assert (ok = true) as -> by (apply Oa; split; [intros m p (a & G & _); discriminate|now left]).
  destruct Xa as (a1 & l1 & -> & R1 & _ & ->). cbn [mset] in Ca. clear Sa Oa. unfold account_dir in *. fold id1 in Ca |- *.
  assert (OKa : store_ok [(hex_encode id1, a1)]) by (eapply (step_ok [] (OCreate p1 false)); eauto; apply empty_ok).
  destruct (create_spec _ p2 false OKa W2) as [(ok & sb & Cb) Sb]. destruct (Sb _ _ Cb) as [Ob Xb]. unfold account_dir in *. fold id2 in Ob, Xb |- *.
  assert (G2 : mget [(hex_encode id1, a1)] (hex_encode id2) = None).
  { cbn. rewrite eqb_sym. apply eqb_neq in HN. now rewrite HN. }
  assert (ok = true) as ->.
  { apply Ob. split; [|now left]. intros m p (a & G & L & _). cbn in G. destruct (eqb m (hex_encode id1)); [|discriminate].
    injection G as <-. apply (rec_ok_get _ _ _ R1) in L. discriminate. }
  destruct Xb as (a2 & l2 & -> & R2 & Xb). rewrite G2 in Xb. destruct Xb as [_ ->].
  set (sb := mset [(hex_encode id1, a1)] (hex_encode id2) a2) in *.
  assert (OKb : store_ok sb) by (eapply (step_ok _ (OCreate p2 false)); eauto).
  destruct (change_spec true sb id1 OKb) as [(ok & sc & Cc) Sc]. specialize (Sc _ _ Cc). unfold account_dir in Sc.
  assert (Gb1 : mget sb (hex_encode id1) = Some a1) by (unfold sb; rewrite mget_mset_ne by auto; cbn; now rewrite eqb_refl).
  assert (Gb2 : mget sb (hex_encode id2) = Some a2) by apply mget_mset_eq.
  rewrite Gb1 in Sc. destruct Sc as (-> & a1' & q1 & m1 & -> & Q1 & _ & R1' & _).
  destruct (rec_ok_unique _ _ _ _ _ R1 Q1) as [<- _]. clear Q1.
  set (sc := mset sb (hex_encode id1) a1') in *.
  assert (W1' : Forall is_byte id1) by apply W1. assert (W2' : Forall is_byte id2) by apply W2.
  assert (OKc : store_ok sc) by (eapply (step_ok _ (OPush id1)); eauto).
  destruct (change_spec true sc id2 OKc) as [(ok & sd & Cd) Sd]. specialize (Sd _ _ Cd). unfold account_dir in Sd.
  assert (Gc1 : mget sc (hex_encode id1) = Some a1') by apply mget_mset_eq.
  assert (Gc2 : mget sc (hex_encode id2) = Some a2) by (unfold sc; rewrite mget_mset_ne; auto).
  rewrite Gc2 in Sd. destruct Sd as (-> & a2' & q2 & m2 & -> & Q2 & _ & R2' & _).
  destruct (rec_ok_unique _ _ _ _ _ R2 Q2) as [<- _]. clear Q2.
  set (sd := mset sc (hex_encode id2) a2') in *.
  assert (OKd : store_ok sd) by (eapply (step_ok _ (OPush id2)); eauto).
  assert (Gd1 : mget sd (hex_encode id1) = Some a1') by (unfold sd; rewrite mget_mset_ne; auto).
  assert (Gd2 : mget sd (hex_encode id2) = Some a2') by apply mget_mset_eq.
  destruct (rec_ok_get _ _ _ R1') as (I1 & L1 & _), (rec_ok_get _ _ _ R2') as (I2 & L2 & _), (rec_ok_get _ _ _ R2) as (_ & L20 & _).
  assert (Lc : lists sc (hex_encode id1) nick p1) by (exists a1'; repeat split; auto; now apply L1).
  assert (Ld1 : lists sd (hex_encode id1) nick p1) by (exists a1'; repeat split; auto; now apply L1).
  assert (Ld2 : lists sd (hex_encode id2) nick p2) by (exists a2'; repeat split; auto; now apply L2).
  assert (Kc : forall m a, mget sc m = Some a -> m = hex_encode id1 \/ m = hex_encode id2).
  { intros m a. unfold sc, sb. rewrite !mget_mset. cbn [mget]. destruct (eqb_spec m (hex_encode id1)); auto.
    destruct (eqb_spec m (hex_encode id2)); auto. discriminate. }
  assert (Kd : forall m a, mget sd m = Some a -> m = hex_encode id1 \/ m = hex_encode id2).
  { intros m a. unfold sd. rewrite mget_mset. destruct (eqb_spec m (hex_encode id2)); auto. apply Kc. }
  exists sc, sd. split; [|split; [|split; [|split; [|split]]]]; auto.
  - econstructor; [exact Ca|]. econstructor; [exact Cb|]. econstructor; [exact Cc|]. constructor.
  - pose proof (find_spec sc nick OKc) as F. destruct (find sc nick) as [p|]; [|now apply F in Lc].
    destruct F as (n & (a & G & L & I & N) & _). destruct (Kc _ _ G) as [->| ->]; [congruence|].
    rewrite Gc2 in G. injection G as <-. apply L20 in L. discriminate.
  - intros Le. pose proof (find_spec sd nick OKd) as F. destruct (find sd nick) as [p|]; [|now apply F in Ld2].
    destruct F as (n & (a & G & L & I & N) & M). destruct (Kd _ _ G) as [->| ->]; [|congruence].
    apply M in Ld2. destruct HN. now apply lex_leb_antisym.
Qed.
Print Assumptions C30_unique_refuted.

(** While an account is disabled anybody who may create accounts can take its
    identity; from then on it can not be enabled again, and what is sent to it goes
    to the new account. *)
Theorem C29_taken_refuted p q : pid_wire p -> pid_wire q ->
  PublicIdentity_Identity p = PublicIdentity_Identity q ->
  let id := PublicIdentity_Identity p in
  exists s, acct_run [] [OCreate p false; ODisable id; OCreate q false] s /\
    (exists a b, mget s (disabled_dir id) = Some a /\ identity_of a = Some p /\
                 mget s (account_dir id) = Some b /\ identity_of b = Some q) /\
    enable s id = (s, false) /\ login_check s id = Unwelcomed /\
    forall from m cl name rcv, snd (deliver s id from m cl name rcv) = true.
Proof.
  intros Wp Wq EI id.
  assert (B : Forall is_byte id) by apply Wp.
  destruct (create_spec [] p false empty_ok Wp) as [(ok & sa & Ca) Sa]. destruct (Sa _ _ Ca) as [Oa Xa].
  assert (ok = true) as -> by (apply Oa; split; [intros m r (a & G & _); discriminate|now left]).
  destruct Xa as (a1 & l1 & -> & R1 & _ & ->). clear Sa Oa. fold id in Ca |- *. set (sa := mset [] (account_dir id) a1) in *.
  assert (OKa : store_ok sa) by (eapply (step_ok [] (OCreate p false)); eauto; apply empty_ok).
  destruct (disable sa id) as [sb ok] eqn:D. pose proof (C29_disable _ _ _ _ B D) as (D1 & _ & D3).
  assert (Ga : mget sa (account_dir id) = Some a1) by apply mget_mset_eq.
  assert (ok = true) as ->.
  { apply D1. split; [congruence|]. unfold sa. rewrite mget_mset. destruct (eqb_spec (disabled_dir id) (account_dir id)) as [E|]; auto.
    symmetry in E. now apply dirs_differ in E. }
  destruct (D3 eq_refl) as (Db & Eb & Ob). rewrite Ga in Db. clear D1 D3.
  assert (OKb : store_ok sb) by (eapply (step_ok sa (ODisable id)); [exact OKa|exact B|symmetry; exact D]).
  destruct (create_spec sb q false OKb Wq) as [(ok & sc & Cc) Sc]. destruct (Sc _ _ Cc) as [Oc Xc].
  rewrite <- EI in Oc, Xc. fold id in Oc, Xc.
  assert (ok = true) as ->.
  { apply Oc. split; [|now left]. intros m r (a & G & L & _). destruct (list_eq_dec N.eq_dec m (account_dir id)) as [->|N1]; [congruence|].
    destruct (list_eq_dec N.eq_dec m (disabled_dir id)) as [->|N2].
    - rewrite Db in G. injection G as <-. apply (rec_ok_get _ _ _ R1) in L. discriminate.
    - rewrite Ob in G by auto. unfold sa in G. rewrite mget_mset_ne in G by auto. discriminate. }
  destruct Xc as (a2 & l2 & -> & R2 & Xc). rewrite Eb in Xc. destruct Xc as [CA ->].
  set (sc := mset sb (account_dir id) a2) in *.
  assert (G1 : mget sc (disabled_dir id) = Some a1).
  { unfold sc. rewrite mget_mset_ne; auto. intros E. symmetry in E. now apply dirs_differ in E. }
  assert (G2 : mget sc (account_dir id) = Some a2) by apply mget_mset_eq.
  exists sc. split; [|split; [|split; [|split]]].
  - econstructor; [exact Ca|]. econstructor; [symmetry; exact D|]. econstructor; [exact Cc|]. constructor.
  - exists a1, a2. destruct (rec_ok_get _ _ _ R1) as (I1 & _), (rec_ok_get _ _ _ R2) as (I2 & _). auto.
  - unfold enable, mhas. now rewrite G1, G2.
  - unfold login_check, disabled, mhas. now rewrite G1.
  - intros. unfold deliver. rewrite G2, CA. reflexivity.
Qed.
Print Assumptions C29_taken_refuted.

(** * Concrete cases *)

Definition somebody (nick : bytes) (i : N) : PublicIdentity :=
  mkPublicIdentity [] nick (repeat 1 32) (repeat 2 1218) (repeat i 32) (repeat 3 32) (repeat 4 64).

Lemma Forall_repeat {A} (P : A -> Prop) x n : P x -> Forall P (repeat x n).
Proof. intros H. induction n; constructor; auto. Qed.

Lemma somebody_wire nick i : i < 256 -> Forall is_byte nick -> (length nick < 100)%nat -> pid_wire (somebody nick i).
Proof.
  intros Hi Hn Hl. split; [|split].
  - assert (P : forall n, pad_len n < 4) by (intros; apply N.mod_lt; lia).
    assert (S : forall x, (length x < 100)%nat -> str_ok 0 x).
    { intros x L. split; [|now left]. specialize (P (N.of_nat (length x))). unfold max_int32. lia. }
    unfold PublicIdentity_ok, size_ok. cbn [PublicIdentity_Name PublicIdentity_Nick PublicIdentity_SigKey PublicIdentity_Key
      PublicIdentity_Identity PublicIdentity_Digest PublicIdentity_Signature somebody]. rewrite !repeat_length.
    repeat split; auto; apply S; cbn; lia.
  - cbn -[N.modulo repeat pad_len]. repeat first [apply Forall_cons; [unfold is_byte; apply N.mod_lt; lia|] | apply Forall_app; split];
      auto; apply Forall_repeat; unfold is_byte; lia.
  - apply Forall_repeat. unfold is_byte. lia.
Qed.

Example alice_wire : pid_wire (somebody (bs "alice") 7).
Proof. apply somebody_wire; [lia| |cbn; lia]. cbn. repeat (apply Forall_cons; [unfold is_byte; lia|]). constructor. Qed.

(** Somebody else called alice, whose identity comes first, takes over the nick. *)
Example alice_hijacked :
  exists s1 s2,
    acct_run [] [OCreate (somebody (bs "alice") 7) false; OCreate (somebody (bs "alice") 5) false; OPush (repeat 7 32)] s1 /\
    acct_step s1 (OPush (repeat 5 32)) true s2 /\
    find s1 (bs "alice") = Some (somebody (bs "alice") 7) /\ find s2 (bs "alice") = Some (somebody (bs "alice") 5).
Proof.
  destruct (C30_unique_refuted (somebody (bs "alice") 7) (somebody (bs "alice") 5)) as (s1 & s2 & R & S & F & _ & _ & G).
  - exact alice_wire.
  - apply somebody_wire; [lia| |cbn; lia]. cbn. repeat (apply Forall_cons; [unfold is_byte; lia|]). constructor.
  - reflexivity.
  - discriminate.
  - exists s1, s2. split; [exact R|]. split; [exact S|]. split; [exact F|]. apply G. reflexivity.
Qed.

(** Once alice has logged in, nobody else can be called alice, not even while the
    account is disabled; bob can be created. *)
Example alice_kept os s : os = [OCreate (somebody (bs "alice") 7) false; OPush (repeat 7 32); ODisable (repeat 7 32)] ->
  acct_run [] os s ->
  (forall ok s', create s (somebody (bs "alice") 5) false ok s' -> ok = false) /\
  (forall ok s', create s (somebody (bs "bob") 5) false ok s' -> ok = true).
Proof.
  intros -> R.
  assert (W5 : pid_wire (somebody (bs "alice") 5)).
  { apply somebody_wire; [lia| |cbn; lia]. cbn. repeat (apply Forall_cons; [unfold is_byte; lia|]). constructor. }
  assert (Wb : pid_wire (somebody (bs "bob") 5)).
  { apply somebody_wire; [lia| |cbn; lia]. cbn. repeat (apply Forall_cons; [unfold is_byte; lia|]). constructor. }
  assert (B : Forall is_byte (repeat 7 32)) by (apply Forall_repeat; unfold is_byte; lia).
  assert (W : Forall op_wire [OCreate (somebody (bs "alice") 7) false; OPush (repeat 7 32); ODisable (repeat 7 32)]).
  { constructor; [exact alice_wire|]. constructor; [exact B|]. constructor; [exact B|]. constructor. }
  pose proof (run_ok _ _ _ empty_ok W R) as OK.
  inversion R as [|? ? ok1 s1 ? ? S1 R1]; subst. inversion R1 as [|? ? ok2 s2 ? ? S2 R2]; subst.
  inversion R2 as [|? ? ok3 s3 ? ? S3 R3]; subst. inversion R3; subst. clear R R1 R2 R3.
  destruct (create_spec [] _ false empty_ok alice_wire) as [_ X]. destruct (X _ _ S1) as [O1 Y]. clear X.
  assert (ok1 = true) as -> by (apply O1; split; [intros m r (a & G & _); discriminate|now left]).
  destruct Y as (a1 & l & -> & R1 & _). cbn [mset] in *.
  assert (OK1 : store_ok [(account_dir (PublicIdentity_Identity (somebody (bs "alice") 7)), a1)]) by (apply (step_ok [] (OCreate (somebody (bs "alice") 7) false) true); [apply empty_ok|exact alice_wire|exact S1]).
  change (PublicIdentity_Identity (somebody (bs "alice") 7)) with (repeat 7 32) in *.
  destruct (change_spec true _ (repeat 7 32) OK1) as [_ X]. specialize (X _ _ S2). cbn [mget] in X. rewrite eqb_refl in X.
  destruct X as (_ & a2 & p & l2 & -> & R1' & _ & R2 & _). cbn [mset] in *. rewrite eqb_refl in *.
  destruct (rec_ok_unique _ _ _ _ _ R1 R1') as [<- _].
  change ((s, ok3) = disable [(account_dir (repeat 7 32), a2)] (repeat 7 32)) in S3. symmetry in S3.
  pose proof (C29_disable _ _ _ _ B S3) as (D1 & _ & D3).
  assert (NE : eqb (disabled_dir (repeat 7 32)) (account_dir (repeat 7 32)) = false) by reflexivity.
  assert (ok3 = true) as -> by (apply D1; cbn [mget]; rewrite eqb_refl, NE; split; [discriminate|auto]).
  destruct (D3 eq_refl) as (E1 & E2 & E3). cbn [mget] in E1. rewrite eqb_refl in E1.
  destruct (rec_ok_get _ _ _ R2) as (I2 & L2 & _). split; intros ok s' C.
  - destruct (create_spec s (somebody (bs "alice") 5) false OK W5) as [_ X]. destruct (X _ _ C) as [O _]. destruct ok; auto.
    destruct O as [O _]. destruct (O eq_refl) as [O' _]. exfalso. apply (O' (disabled_dir (repeat 7 32)) (somebody (bs "alice") 7)).
    exists a2. split; [exact E1|]. split; [now apply L2|]. split; [exact I2|reflexivity].
  - destruct (create_spec s (somebody (bs "bob") 5) false OK Wb) as [_ X]. destruct (X _ _ C) as [O _]. apply O.
    split.
    + intros m q (a & G & _ & I & N). destruct (list_eq_dec N.eq_dec m (disabled_dir (repeat 7 32))) as [->|M1].
      * rewrite E1 in G. injection G as <-. rewrite I2 in I. injection I as <-. discriminate.
      * destruct (list_eq_dec N.eq_dec m (account_dir (repeat 7 32))) as [->|M2]; [congruence|].
        rewrite E3 in G by auto. cbn [mget] in G. apply eqb_neq in M2. rewrite M2 in G. discriminate.
    + left. rewrite E3 by discriminate. reflexivity.
Qed.

(** Disabling in upper case: the account is moved and the session stays. *)
Example upper_case :
  let s := [(account_dir (repeat 171 32), {| a_user := None; a_cache := Some [] |})] in
  let upper := flat_map (fun _ => [65; 66]) (repeat 0 32) in
  hex_decode upper = Some (repeat 171 32) /\
  socket_disable s [account_dir (repeat 171 32)] upper =
    Ok ([(disabled_dir (repeat 171 32), {| a_user := None; a_cache := Some [] |})], true, false).
Proof. split; reflexivity. Qed.
Example short_name : socket_disable [] [] (bs "abcd") = Panic.
Proof. reflexivity. Qed.
