(** C90: what is left of an account when the server dies while it creates or lists it,
    and what that does to the others. *)
From Verif Require Import Base HexModel IniModel IniMemProofs IniFileProofs IniDiskProofs XdrModel XdrProofs RpcModel RpcProofs
  StrconvModel ServerDbModel ServerDbProofs AcctModel BlobProps AcctProofs AcctProps HoleModel.
Local Open Scope N_scope.

(** * Specification *)

(** A directory of an account without the file that says whose it is. *)
Definition hole (s : store) (n : bytes) : Prop := exists a, mget s n = Some a /\ a_user a = None.
(** A directory of an account in which no message can be stored. *)
Definition boxless (s : store) (n : bytes) : Prop := exists a, mget s n = Some a /\ a_cache a = None.
(** The account [id], enabled or disabled, is such. *)
Definition account_is (P : store -> bytes -> Prop) (s : store) (id : bytes) : Prop :=
  P s (hex_encode id) \/ P s (46 :: hex_encode id).
(** [o] is about the account [id]; a creation by force of the same account. *)
Definition about (o : acct_op) (id : bytes) : Prop :=
  match o with OCreate p _ => PublicIdentity_Identity p = id | OPush i | OPull i => i = id | _ => False end.
Definition forces (id : bytes) (o : acct_op) : Prop :=
  match o with OCreate p f => f = true /\ PublicIdentity_Identity p = id | _ => False end.

(** * Proofs *)

Lemma found_lists nick a p : find_entry nick a = Found p -> is_listed a /\ identity_of a = Some p /\ PublicIdentity_Nick p = nick.
Proof.
  unfold find_entry, is_listed, identity_of, field. destruct (a_user a) as [c|]; [|discriminate]. destruct (parse c) as [t|]; [|discriminate].
  unfold ini_get, opened, IniFileProofs.lookup. cbn [db_tables]. destruct (mget t []) as [sec|]; [|discriminate].
  destruct (mget sec (bs "listed")) as [l|]; [|discriminate]. destruct (eqb_spec l (bs "1")) as [->|]; [|discriminate].
  destruct (mget sec (bs "identity")) as [v|]; [|discriminate]. destruct (b64_decode v) as [b|]; [|discriminate].
  destruct (dec PublicIdentity_codec 0 b) as [[q r]|]; [|discriminate].
  destruct (eqb_spec (PublicIdentity_Nick q) nick) as [E|]; [|discriminate]. injection 1 as <-. auto.
Qed.
Lemma hole_fails nick a : a_user a = None -> find_entry nick a = Fail.
Proof. intros E. unfold find_entry. now rewrite E. Qed.

Lemma find_in_before s n nick p names : StronglySorted lex_le names -> hole s n -> In n names -> find_in s nick names = Some p ->
  exists m, lists s m nick p /\ lex_leb n m = false.
Proof.
  intros S (h & G & U). induction names as [|x r IH]; intros I; [destruct I|]. inversion S as [|? ? S' F]; subst. cbn [find_in].
  destruct (list_eq_dec N.eq_dec x n) as [->|Ne].
  { rewrite G, (hole_fails nick h U). discriminate. }
  destruct I as [->|I]; [congruence|]. destruct (mget s x) as [a|] eqn:Gx; [|now apply IH].
  destruct (find_entry nick a) as [|q|] eqn:Fe; [now apply IH| |discriminate]. injection 1 as ->.
  destruct (found_lists _ _ _ Fe) as (A & B & C). exists x. split; [exists a; auto|].
  rewrite Forall_forall in F. specialize (F n I). unfold lex_le in F. destruct (lex_leb n x) eqn:L; auto. exfalso. apply Ne. now apply lex_leb_antisym.
Qed.
Lemma find_before s n nick p : hole s n -> find s nick = Some p -> exists m, lists s m nick p /\ lex_leb n m = false.
Proof.
  intros H. apply find_in_before; [apply lex_sort_sorted|exact H|]. destruct H as (a & G & _). apply mget_Some_keys in G.
  eapply Permutation_in; [apply Permutation_sym, lex_sort_perm|exact G].
Qed.

(** What lasts: a fault [Q] that neither messages nor listing mend. *)
Section Lasting.
Variable Q : acct -> Prop.
Hypothesis Qc : forall a c c', Q a -> a_cache a = Some c -> Q {| a_user := a_user a; a_cache := Some c' |}.
Hypothesis Qu : forall a f c, Q a -> a_user a = Some c -> Q {| a_user := Some f; a_cache := a_cache a |}.
Definition has (s : store) (n : bytes) : Prop := exists a, mget s n = Some a /\ Q a.

Lemma has_ne s n m x : has s m -> m <> n -> has (mset s n x) m.
Proof. intros (a & G & H) Ne. exists a. split; auto. now rewrite mget_mset_ne. Qed.
Lemma has_eq s n x : Q x -> has (mset s n x) n.
Proof. intros H. exists x. split; auto. apply mget_mset_eq. Qed.

Lemma change_has s id op ok s' m : has s m -> change_user s id op ok s' -> has s' m.
Proof using Qu.
  intros H. unfold change_user. destruct (mget s (account_dir id)) as [a|] eqn:G; [|now intros [_ ->]].
  destruct (a_user a) as [c|] eqn:U; [|now intros [_ ->]]. destruct (parse c) as [t|]; [|now intros [_ ->]].
  destruct (op (opened t false)) as [d' [e|]]; [now intros [_ ->]|]. intros (_ & f' & _ & ->).
  destruct (list_eq_dec N.eq_dec m (account_dir id)) as [->|Ne]; [|now apply has_ne].
  apply has_eq. destruct H as (b & Gb & Hb). rewrite G in Gb. injection Gb as <-. eapply Qu; eauto.
Qed.

Lemma cache_has s id c' m : has s m -> (forall a c, mget s (account_dir id) = Some a -> a_cache a = Some c ->
  has (mset s (account_dir id) {| a_user := a_user a; a_cache := Some (c' c) |}) m).
Proof using Qc.
  intros H a c G C. destruct (list_eq_dec N.eq_dec m (account_dir id)) as [->|Ne]; [|now apply has_ne].
  apply has_eq. destruct H as (b & Gb & Hb). rewrite G in Gb. injection Gb as <-. eapply Qc; eauto.
Qed.

Lemma rename_has s x y m : has s m -> mget s y = None -> x <> y -> has (rename s x y) (if eqb m x then y else m).
Proof.
  intros (a & G & H) Gy Ne. unfold rename. destruct (eqb_spec m x) as [->|Nm].
  - rewrite G. apply has_eq, H.
  - destruct (mget s x) as [d|]; [|exists a; auto]. exists a. split; auto. rewrite mget_mset_ne by congruence.
    rewrite mget_mdel. now destruct (eqb_spec m x).
Qed.

Lemma step_has s o ok s' id : Forall is_byte id -> op_wire o -> ~ forces id o -> acct_step s o ok s' ->
  account_is has s id -> account_is has s' id.
Proof using Qc Qu.
  intros B W NF St [H|H]; destruct o as [pid force|i|i|i|i|to from pl cl nm rcv|i nm]; cbn [acct_step op_wire] in *.
  - (* create, enabled *)
    revert St. unfold create. destruct (find s _); [now intros [_ ->]; left|].
    destruct (mhas s (account_dir (PublicIdentity_Identity pid)) && negb force) eqn:X; [now intros [_ ->]; left|].
    assert (Ne : hex_encode id <> account_dir (PublicIdentity_Identity pid)).
    { intros E. apply hex_inj in E; auto; [|apply W]. subst id. cbn [forces] in NF. destruct force; [tauto|].
      destruct H as (a & G & _). unfold mhas in X. unfold account_dir in X. rewrite G in X. discriminate. }
    destruct (db_open _) as [[f d]|]; [|now intros [_ ->]; left].
    destruct (ini_set d _ _ _) as [d' [e|]]; [intros [_ ->]|intros (_ & f' & _ & ->)]; left; now apply has_ne.
  - left. eapply change_has; eauto.
  - left. eapply change_has; eauto.
  - (* disable, enabled *)
    unfold disable in St. destruct (mhas s (disabled_dir i)) eqn:X; [injection St as -> _; now left|].
    destruct (mhas s (account_dir i)); [|injection St as -> _; now left]. injection St as -> _.
    pose proof (rename_has s (account_dir i) (disabled_dir i) _ H) as Y. lapply Y; [clear Y; intros Y|unfold mhas in X; now destruct (mget s (disabled_dir i))].
    lapply Y; [clear Y; intros Y|apply hex_no_dot; auto].
    destruct (eqb_spec (hex_encode id) (account_dir i)) as [E|]; [|now left]. right. apply hex_inj in E; auto. subst i. exact Y.
  - (* enable, enabled *)
    unfold enable in St. destruct (mhas s (disabled_dir i)) eqn:X; [|injection St as -> _; now left].
    destruct (mhas s (account_dir i)) eqn:Z; [injection St as -> _; now left|]. injection St as -> _.
    pose proof (rename_has s (disabled_dir i) (account_dir i) _ H) as Y. lapply Y; [clear Y; intros Y|unfold mhas in Z; now destruct (mget s (account_dir i))].
    lapply Y; [clear Y; intros Y|intros E; symmetry in E; revert E; apply hex_no_dot; auto].
    destruct (eqb_spec (hex_encode id) (disabled_dir i)) as [E|]; [|now left]. now apply hex_no_dot in E.
  - left. unfold deliver in St. destruct (mget s (account_dir to)) as [a|] eqn:G; [|injection St as -> _; exact H].
    destruct (a_cache a) as [c|] eqn:C; [|injection St as -> _; exact H]. destruct (mhas c nm); injection St as -> _; [exact H|].
    eapply (cache_has s to (fun c => mset c nm _)); eauto.
  - left. unfold delete in St. destruct (mget s (account_dir i)) as [a|] eqn:G; [|injection St as -> _; exact H].
    destruct (a_cache a) as [c|] eqn:C; [|injection St as -> _; exact H]. destruct (mhas c nm); injection St as -> _; [|exact H].
    eapply (cache_has s i (fun c => mdel c nm)); eauto.
  - (* create, disabled *)
    revert St. unfold create. destruct (find s _); [now intros [_ ->]; right|].
    destruct (mhas s (account_dir (PublicIdentity_Identity pid)) && negb force) eqn:X; [now intros [_ ->]; right|].
    assert (Ne : 46 :: hex_encode id <> account_dir (PublicIdentity_Identity pid)).
    { intros E. symmetry in E. revert E. apply hex_no_dot. apply W. }
    destruct (db_open _) as [[f d]|]; [|now intros [_ ->]; right].
    destruct (ini_set d _ _ _) as [d' [e|]]; [intros [_ ->]|intros (_ & f' & _ & ->)]; right; now apply has_ne.
  - right. eapply change_has; eauto.
  - right. eapply change_has; eauto.
  - (* disable, disabled *)
    unfold disable in St. destruct (mhas s (disabled_dir i)) eqn:X; [injection St as -> _; now right|].
    destruct (mhas s (account_dir i)); [|injection St as -> _; now right]. injection St as -> _.
    pose proof (rename_has s (account_dir i) (disabled_dir i) _ H) as Y. lapply Y; [clear Y; intros Y|unfold mhas in X; now destruct (mget s (disabled_dir i))].
    lapply Y; [clear Y; intros Y|apply hex_no_dot; auto].
    destruct (eqb_spec (46 :: hex_encode id) (account_dir i)) as [E|]; [|now right]. symmetry in E. now apply hex_no_dot in E.
  - (* enable, disabled *)
    unfold enable in St. destruct (mhas s (disabled_dir i)) eqn:X; [|injection St as -> _; now right].
    destruct (mhas s (account_dir i)) eqn:Z; [injection St as -> _; now right|]. injection St as -> _.
    pose proof (rename_has s (disabled_dir i) (account_dir i) _ H) as Y. lapply Y; [clear Y; intros Y|unfold mhas in Z; now destruct (mget s (account_dir i))].
    lapply Y; [clear Y; intros Y|intros E; symmetry in E; revert E; apply hex_no_dot; auto].
    destruct (eqb_spec (46 :: hex_encode id) (disabled_dir i)) as [E|]; [|now right]. left. apply (f_equal (@tl _)) in E. cbn [tl disabled_dir] in E.
    apply hex_inj in E; auto. subst i. exact Y.
  - right. unfold deliver in St. destruct (mget s (account_dir to)) as [a|] eqn:G; [|injection St as -> _; exact H].
    destruct (a_cache a) as [c|] eqn:C; [|injection St as -> _; exact H]. destruct (mhas c nm); injection St as -> _; [exact H|].
    eapply (cache_has s to (fun c => mset c nm _)); eauto.
  - right. unfold delete in St. destruct (mget s (account_dir i)) as [a|] eqn:G; [|injection St as -> _; exact H].
    destruct (a_cache a) as [c|] eqn:C; [|injection St as -> _; exact H]. destruct (mhas c nm); injection St as -> _; [|exact H].
    eapply (cache_has s i (fun c => mdel c nm)); eauto.
Qed.

Lemma run_has os : forall s s' id, Forall is_byte id -> Forall op_wire os -> Forall (fun o => ~ forces id o) os -> acct_run s os s' ->
  account_is has s id -> account_is has s' id.
Proof using Qc Qu.
  induction os as [|o os IH]; intros s s' id B W NF R H; inversion R; subst; auto. inversion W; subst. inversion NF; subst.
  eapply IH; eauto. eapply step_has; eauto.
Qed.
End Lasting.

Lemma run_hole os s s' id : Forall is_byte id -> Forall op_wire os -> Forall (fun o => ~ forces id o) os -> acct_run s os s' ->
  account_is hole s id -> account_is hole s' id.
Proof. apply (run_has (fun a => a_user a = None)); cbn; congruence. Qed.
Lemma run_boxless os s s' id : Forall is_byte id -> Forall op_wire os -> Forall (fun o => ~ forces id o) os -> acct_run s os s' ->
  account_is boxless s id -> account_is boxless s' id.
Proof. apply (run_has (fun a => a_cache a = None)); cbn; congruence. Qed.

Lemma find_in_after s n nick names : StronglySorted lex_le names ->
  (forall x a, x <> n -> mget s x = Some a -> exists p l, rec_ok a p l) -> find_in s nick names = None ->
  forall m p, In m names -> lists s m nick p -> lex_leb n m = true.
Proof.
  intros S OK. induction names as [|x r IH]; intros F m p I L; [destruct I|]. inversion S as [|? ? S' Fa]; subst. cbn [find_in] in F.
  destruct (list_eq_dec N.eq_dec x n) as [->|Ne].
  { destruct I as [<-|I]; [apply lex_leb_refl|]. rewrite Forall_forall in Fa. now apply Fa. }
  destruct L as (b & Gb & Lb & Ib & Nb). destruct (mget s x) as [a|] eqn:G.
  - destruct (OK x a Ne G) as (q & l & R). destruct (rec_ok_get _ _ _ R) as (Iq & Lq & Fe). rewrite Fe in F.
    destruct I as [->|I].
    + rewrite G in Gb. injection Gb as <-. apply Lq in Lb. subst l. rewrite Iq in Ib. injection Ib as ->. rewrite Nb, eqb_refl in F. discriminate.
    + destruct l; [destruct (eqb (PublicIdentity_Nick q) nick); [discriminate|]|]; apply (IH S' F m p I); exists b; auto.
  - destruct I as [->|I]; [congruence|]. apply (IH S' F m p I). exists b; auto.
Qed.

Lemma leb_dot h : lex_leb (46 :: h) h = true \/ h = [] \/ hd 0 h <= 46.
Proof.
  destruct h as [|x h]; [auto|]. cbn [lex_leb hd]. destruct (N.ltb_spec 46 x) as [L|L]; [|auto]. left. destruct (N.eqb_spec 46 x); [lia|reflexivity].
Qed.
Lemma hex_hd id : length id = 32%nat -> Forall is_byte id -> 46 < hd 0 (hex_encode id).
Proof.
  intros L B. destruct id as [|x id]; [discriminate|]. unfold hex_encode. cbn [flat_map app hd]. unfold hex_digit.
  generalize (x / 16). intros y. destruct (N.ltb_spec y 10); lia.
Qed.
Lemma dot_before id m : length id = 32%nat -> Forall is_byte id -> lex_leb (46 :: hex_encode id) m = false -> lex_leb (hex_encode id) m = false.
Proof.
  intros L B X. destruct (lex_leb (hex_encode id) m) eqn:Y; auto. pose proof (hex_hd id L B) as H.
  destruct (leb_dot (hex_encode id)) as [Z|[Z|Z]]; [rewrite (lex_leb_trans _ _ _ Z Y) in X; discriminate|rewrite Z in H; cbn in H; lia|lia].
Qed.
Lemma dot_first id id' : length id' = 32%nat -> Forall is_byte id' -> lex_leb (46 :: hex_encode id) (hex_encode id') = true.
Proof.
  intros L B. pose proof (hex_hd id' L B) as H. destruct (hex_encode id') as [|x h]; [cbn in H; lia|]. cbn [lex_leb hd] in *.
  destruct (N.eqb_spec 46 x); [lia|]. apply N.ltb_lt. exact H.
Qed.

Lemma create_over s pid force : pid_wire pid -> find s (PublicIdentity_Nick pid) = None ->
  mhas s (account_dir (PublicIdentity_Identity pid)) && negb force = false ->
  a_user (at_dir s (account_dir (PublicIdentity_Identity pid))) = None ->
  (exists s', create s pid force true s') /\
  forall ok s', create s pid force ok s' -> ok = true /\ exists a', s' = mset s (account_dir (PublicIdentity_Identity pid)) a' /\ rec_ok a' pid false /\
    a_cache a' = Some match a_cache (at_dir s (account_dir (PublicIdentity_Identity pid))) with Some c => c | None => [] end.
Proof.
  intros W F M U. unfold create. rewrite F, M. unfold at_dir, no_acct in U |- *. set (n := account_dir (PublicIdentity_Identity pid)) in *.
  set (a := match mget s n with Some a => a | None => {| a_user := None; a_cache := None |} end) in *.
  rewrite U. cbn [db_open]. rewrite (flat_set _ []) by reflexivity. destruct clean_identity as (K1 & K2 & K3).
  set (d := {| db_tables := [([], mset [] (bs "identity") (b64_encode (enc PublicIdentity_codec pid)))];
               db_dirty := true; db_created := db_created ini_fresh |}).
  destruct (write_user (render [([], [])]) d [] (mset [] (bs "identity") (b64_encode (enc PublicIdentity_codec pid))) pid false
    match a_cache a with Some c => c | None => [] end) as [X1 X2]; auto.
  - apply NoDup_mset. constructor.
  - apply clean_section_set; auto; [now apply wire_clean|constructor].
  - intros k. rewrite mget_mset. destruct (eqb k (bs "identity")); auto. now destruct (eqb k (bs "listed")).
  - apply render_fresh.
  - split; [destruct X1; eauto 10|]. intros ok s' (-> & f' & S & ->). split; auto. eexists. split; [reflexivity|]. split; [now apply X2|reflexivity].
Qed.

(** * Theorems *)

(** What others can see meanwhile, and what is left if the server dies: the other
    accounts are untouched, the messages of the account are kept, and the account is as
    before, or as afterwards, or lacks the file that says whose it is, or is new and
    cannot take messages. *)
Theorem C90_left os s o id s' : acct_run [] os s -> Forall op_wire os -> op_wire o -> about o id -> passes s o s' ->
  (forall m, m <> hex_encode id -> mget s' m = mget s m) /\
  (forall a, mget s (hex_encode id) = Some a -> exists a', mget s' (hex_encode id) = Some a' /\ a_cache a' = a_cache a) /\
  (s' = s \/ (exists ok, acct_step s o ok s') \/ hole s' (hex_encode id) \/
   (mget s (hex_encode id) = None /\ boxless s' (hex_encode id))).
Proof.
  intros R Wo W A P. pose proof (run_ok _ _ _ empty_ok Wo R) as OK.
  assert (Set_ : forall x, a_cache x = a_cache (at_dir s (hex_encode id)) ->
    (forall m, m <> hex_encode id -> mget (mset s (hex_encode id) x) m = mget s m) /\
    (forall a, mget s (hex_encode id) = Some a -> exists a', mget (mset s (hex_encode id) x) (hex_encode id) = Some a' /\ a_cache a' = a_cache a)).
  { intros x E. split; [intros; now apply mget_mset_ne|]. intros a G. exists x. split; [apply mget_mset_eq|]. unfold at_dir in E. now rewrite G in E. }
  assert (Hole : forall x, a_user x = None -> hole (mset s (hex_encode id) x) (hex_encode id)) by (intros x U; exists x; split; [apply mget_mset_eq|exact U]).
  destruct P as [o|o ok s' St|pid force G Nn|pid force G U|pid force c t d' G U Pc Si|pid force f d d' f' G Op Si Sa|i a c t d' Gi U Pc Si|i a c t d' Gi U Pc Si];
    cbn [about op_wire] in A, W; try subst i; try subst id.
  - split; auto. split; [eauto|]. now left.
  - rewrite <- and_assoc. split; [|right; left; eauto]. destruct o as [pid force|i|i|i|i|to from pl cl nm rcv|i nm]; cbn [about op_wire acct_step] in *; try destruct A.
    + destruct (create_spec s pid force OK W) as [_ X]. destruct (X _ _ St) as [_ Y]. cbv zeta in Y. destruct ok; [|subst s'; split; eauto].
      destruct Y as (a' & l & -> & _ & K). split; [intros; now apply mget_mset_ne|]. intros a G. exists a'. split; [apply mget_mset_eq|].
      unfold account_dir in K. rewrite G in K. apply K.
    + destruct (change_spec true s i OK) as [_ X]. specialize (X _ _ St). unfold account_dir in X. destruct (mget s (hex_encode i)) as [a|] eqn:G.
      * destruct X as (_ & a' & p & l & -> & _ & _ & _ & E). split; [intros; now apply mget_mset_ne|]. injection 1 as <-. exists a'. split; [apply mget_mset_eq|exact E].
      * destruct X as [_ ->]. split; [auto|congruence].
    + destruct (change_spec false s i OK) as [_ X]. specialize (X _ _ St). unfold account_dir in X. destruct (mget s (hex_encode i)) as [a|] eqn:G.
      * destruct X as (_ & a' & p & l & -> & _ & _ & _ & E). split; [intros; now apply mget_mset_ne|]. injection 1 as <-. exists a'. split; [apply mget_mset_eq|exact E].
      * destruct X as [_ ->]. split; [auto|congruence].
  - unfold account_dir in *. destruct (Set_ no_acct) as [X Y]; [unfold at_dir; now rewrite Nn|]. split; [exact X|]. split; [exact Y|]. right. right. left. now apply Hole.
  - unfold account_dir in *. rewrite <- and_assoc. split; [apply Set_; reflexivity|]. right. right. right. unfold at_dir in *.
    destruct (mget s (hex_encode (PublicIdentity_Identity pid))) as [a|] eqn:Ga.
    + destruct OK as [_ OK]. destruct (OK _ _ Ga) as (p & l & (f & s0 & U' & _) & _). congruence.
    + split; auto. eexists. split; [apply mget_mset_eq|reflexivity].
  - unfold account_dir in *. rewrite <- and_assoc. split; [apply Set_; reflexivity|]. right. right. left. now apply Hole.
  - unfold account_dir in *. rewrite <- and_assoc. split; [apply Set_; reflexivity|].
    destruct (mget s (hex_encode (PublicIdentity_Identity pid))) as [a|] eqn:Ga.
    + right. left. exists true. destruct G as [G1 G2]. cbn [acct_step]. unfold create. rewrite G1, G2. unfold account_dir. unfold at_dir in *. rewrite Ga in *.
      rewrite Op, Si. split; auto. exists f'. split; auto. destruct OK as [_ OK]. destruct (OK _ _ Ga) as (p & l & (f0 & s0 & _ & _ & _ & Ca & _) & _).
      destruct (a_cache a); [reflexivity|congruence].
    + right. right. right. split; auto. unfold at_dir. rewrite Ga. eexists. split; [apply mget_mset_eq|reflexivity].
  - unfold account_dir in *. rewrite <- and_assoc. split; [apply Set_; unfold at_dir; now rewrite Gi|]. right. right. left. now apply Hole.
  - unfold account_dir in *. rewrite <- and_assoc. split; [apply Set_; unfold at_dir; now rewrite Gi|]. right. right. left. now apply Hole.
Qed.
Print Assumptions C90_left.

(** Exactly the accounts whose directory comes before such a hole are found. *)
Theorem C90_search os s o id s' nick : acct_run [] os s -> Forall op_wire os -> op_wire o -> about o id -> passes s o s' ->
  hole s' (hex_encode id) ->
  match find s' nick with
  | Some p => exists m, lists s' m nick p /\ lex_leb (hex_encode id) m = false
  | None => forall m p, lists s' m nick p -> lex_leb (hex_encode id) m = true
  end.
Proof.
  intros R Wo W A P H. destruct (find s' nick) as [p|] eqn:F; [now apply find_before|]. intros m p L.
  destruct (C90_left _ _ _ _ _ R Wo W A P) as (Oth & _). pose proof (run_ok _ _ _ empty_ok Wo R) as [_ OK].
  apply (find_in_after s' (hex_encode id) nick (lex_sort (mkeys s')) (lex_sort_sorted _)) with (p := p); auto.
  - intros x a Ne G. rewrite Oth in G by auto. destruct (OK _ _ G) as (q & l & Rq & _). eauto.
  - destruct L as (a & G & _). eapply Permutation_in; [apply Permutation_sym, lex_sort_perm|]. now apply mget_Some_keys in G.
Qed.
Print Assumptions C90_search.

(** It stays so whatever is done afterwards, short of creating the account by force:
    nobody whose directory comes after it is ever found. *)
Theorem C90_lasting id s os s' nick p : length id = 32%nat -> Forall is_byte id -> account_is hole s id ->
  acct_run s os s' -> Forall op_wire os -> Forall (fun o => ~ forces id o) os ->
  account_is hole s' id /\ (find s' nick = Some p -> exists m, lists s' m nick p /\ lex_leb (hex_encode id) m = false).
Proof.
  intros L B H R W NF. pose proof (run_hole os s s' id B W NF R H) as H'. split; [exact H'|]. intros F.
  destruct H' as [H'|H']; destruct (find_before _ _ _ _ H' F) as (m & Lm & X); exists m; split; auto. now apply dot_before.
Qed.
Print Assumptions C90_lasting.

(** Disabling the account makes it worse: then no account that is enabled is found. *)
Theorem C90_disabled s id nick p : hole s (46 :: hex_encode id) -> find s nick = Some p ->
  exists m, lists s m nick p /\ forall id', length id' = 32%nat -> Forall is_byte id' -> m <> hex_encode id'.
Proof.
  intros H F. destruct (find_before _ _ _ _ H F) as (m & Lm & X). exists m. split; auto. intros id' L B ->.
  rewrite dot_first in X by auto. discriminate.
Qed.
Print Assumptions C90_disabled.

(** Creating the account by force mends it. *)
Theorem C90_forced s pid : pid_wire pid -> hole s (hex_encode (PublicIdentity_Identity pid)) -> find s (PublicIdentity_Nick pid) = None ->
  (exists s', create s pid true true s') /\
  forall ok s', create s pid true ok s' -> ok = true /\
    exists a', mget s' (hex_encode (PublicIdentity_Identity pid)) = Some a' /\ identity_of a' = Some pid /\ a_cache a' <> None /\
      forall a, mget s (hex_encode (PublicIdentity_Identity pid)) = Some a -> a_cache a <> None -> a_cache a' = a_cache a.
Proof.
  intros W (h & G & U) F. assert (E : at_dir s (account_dir (PublicIdentity_Identity pid)) = h) by (unfold at_dir, account_dir; now rewrite G).
  destruct (create_over s pid true W F) as [X Y]; [apply andb_false_r|now rewrite E|]. split; [exact X|]. intros ok s' C.
  destruct (Y _ _ C) as (-> & a' & -> & R & Ca). split; auto. exists a'. split; [apply mget_mset_eq|]. split; [apply (rec_ok_get _ _ _ R)|].
  rewrite E in Ca. split; [congruence|]. intros a Ga N. rewrite G in Ga. injection Ga as <-. rewrite Ca. destruct (a_cache h); [reflexivity|congruence].
Qed.
Print Assumptions C90_forced.

(** FALSE claim: a nick that a listed account has cannot be taken.  With a hole before
    all the accounts that have it, it can. *)
Theorem C90_taken_refuted s n m p q : hole s n -> lists s m (PublicIdentity_Nick q) p -> pid_wire q ->
  (forall m' p', lists s m' (PublicIdentity_Nick q) p' -> lex_leb n m' = true) ->
  mget s (hex_encode (PublicIdentity_Identity q)) = None ->
  exists s' a, create s q false true s' /\ mget s' (hex_encode (PublicIdentity_Identity q)) = Some a /\ identity_of a = Some q /\
    lists s' m (PublicIdentity_Nick q) p.
Proof.
  intros H (b & Gb & Lb & Ib & Nb) W Aft Nn. assert (F : find s (PublicIdentity_Nick q) = None).
  { destruct (find s (PublicIdentity_Nick q)) as [r|] eqn:F; auto. destruct (find_before _ _ _ _ H F) as (m' & L & X). rewrite (Aft _ _ L) in X. discriminate. }
  destruct (create_over s q false W F) as [[s' X] Y]; [unfold mhas, account_dir; now rewrite Nn|unfold at_dir, account_dir; now rewrite Nn|].
  destruct (Y _ _ X) as (_ & a' & -> & R & _). exists (mset s (account_dir (PublicIdentity_Identity q)) a'), a'. split; [exact X|]. split; [apply mget_mset_eq|].
  split; [apply (rec_ok_get _ _ _ R)|]. exists b. split; auto. rewrite mget_mset_ne; auto. unfold account_dir. congruence.
Qed.
Print Assumptions C90_taken_refuted.

(** FALSE claim: who could log in before the server died can log in afterwards.  With
    the directory switched on no session begins for an account that lacks its file;
    without a directory it does. *)
Theorem C90_login_refuted directory s id ok s' : hole s (hex_encode id) -> begins directory s id ok s' -> ok = negb directory /\ s' = s.
Proof. intros (a & G & U). unfold begins, push, change_user, account_dir. rewrite G, U. destruct directory; auto. Qed.
Print Assumptions C90_login_refuted.

(** FALSE claim: an account whose creation was cut short can be created again.  It
    cannot, and no message can ever be stored for it, until it is created by force or
    disabled. *)
Theorem C90_again_refuted os s pid force s1 os' s2 : acct_run [] os s -> Forall op_wire os -> pid_wire pid ->
  mget s (hex_encode (PublicIdentity_Identity pid)) = None -> passes s (OCreate pid force) s1 -> s1 <> s ->
  ~ (exists ok, acct_step s (OCreate pid force) ok s1) ->
  acct_run s1 os' s2 -> Forall op_wire os' -> Forall (fun o => ~ forces (PublicIdentity_Identity pid) o) os' ->
  boxless s2 (46 :: hex_encode (PublicIdentity_Identity pid)) \/
  (boxless s2 (hex_encode (PublicIdentity_Identity pid)) /\ (forall ok s3, create s2 pid false ok s3 -> ok = false) /\
   forall from payload clear name rcv, deliver s2 (PublicIdentity_Identity pid) from payload clear name rcv = (s2, false)).
Proof.
  intros R Wo W Nn P Ns Nd R2 W2 NF. pose (id := PublicIdentity_Identity pid). change (PublicIdentity_Identity pid) with id in Nn.
  assert (H : account_is boxless s1 id).
  { left. unfold boxless. inversion P; subst; unfold at_dir in *; change (account_dir (PublicIdentity_Identity pid)) with (hex_encode id) in *; try rewrite Nn in *;
      try (eexists; split; [apply mget_mset_eq|reflexivity]); try congruence. exfalso. apply Nd. eauto. }
  destruct (run_boxless os' s1 s2 id (proj2 (proj2 W)) W2 NF R2 H) as [X|X]; [right|now left]. split; [exact X|]. destruct X as (a & G & C). split.
  - intros ok s3. unfold create. destruct (find s2 _); [now intros [-> _]|]. unfold mhas, account_dir. fold id. rewrite G. now intros [-> _].
  - intros. unfold deliver, account_dir. fold id. now rewrite G, C.
Qed.
Print Assumptions C90_again_refuted.

(** * Cases *)

Lemma named_wire (nick : bytes) i : i < 256 -> forallb (fun c => c <? 256) nick = true -> (length nick < 100)%nat -> pid_wire (somebody nick i).
Proof. intros Hi Hn Hl. apply somebody_wire; auto. apply Forall_forall. intros c I. rewrite forallb_forall in Hn. apply Hn in I. unfold is_byte. now apply N.ltb_lt. Qed.
Definition alice := somebody (bs "alice") 7.
Definition bob := somebody (bs "bob") 9.
Definition rob := somebody (bs "bob") 5.
Lemma wires : pid_wire alice /\ pid_wire bob /\ pid_wire rob.
Proof. repeat split; apply (named_wire (bs "alice") 7) || apply (named_wire (bs "bob") 9) || apply (named_wire (bs "bob") 5); try reflexivity; cbn; lia. Qed.
Lemma sevens i : i < 256 -> Forall is_byte (repeat i 32).
Proof. intros. apply Forall_repeat. unfold is_byte. lia. Qed.

(** Alice and Bob have accounts and are listed.  The server dies while Alice logs in:
    Bob, whose directory comes after hers, is no longer found, somebody else registers
    as bob, and Alice cannot log in. *)
Example alice_dies : exists s s', acct_run [] [OCreate alice false; OPush (repeat 7 32); OCreate bob false; OPush (repeat 9 32)] s /\
  find s (bs "bob") = Some bob /\ passes s (OPush (repeat 7 32)) s' /\ hole s' (hex_encode (repeat 7 32)) /\ lists s' (hex_encode (repeat 9 32)) (bs "bob") bob /\
  find s' (bs "bob") = None /\ (exists s'' a, create s' rob false true s'' /\ mget s'' (hex_encode (repeat 5 32)) = Some a /\ identity_of a = Some rob) /\
  forall ok s'', begins true s' (repeat 7 32) ok s'' -> ok = false.
Proof.
  destruct wires as (Wa & Wb & Wr).
  assert (N79 : hex_encode (repeat 9 32) <> hex_encode (repeat 7 32)) by discriminate.
  assert (N57 : hex_encode (repeat 5 32) <> hex_encode (repeat 7 32)) by discriminate.
  assert (N59 : hex_encode (repeat 5 32) <> hex_encode (repeat 9 32)) by discriminate.
  assert (Leb : lex_leb (hex_encode (repeat 7 32)) (hex_encode (repeat 9 32)) = true) by reflexivity.
  assert (Nick : PublicIdentity_Nick alice <> bs "bob") by discriminate.
  assert (Ia : PublicIdentity_Identity alice = repeat 7 32) by reflexivity.
  assert (Ib : PublicIdentity_Identity bob = repeat 9 32) by reflexivity.
  assert (Ir : PublicIdentity_Identity rob = repeat 5 32) by reflexivity.
  assert (Kb : PublicIdentity_Nick bob = bs "bob") by reflexivity.
  assert (Kr : PublicIdentity_Nick rob = bs "bob") by reflexivity.
  pose proof (sevens 7 eq_refl) as B7. pose proof (sevens 9 eq_refl) as B9.
  Opaque alice bob rob hex_encode.
  assert (W1 : Forall op_wire [OCreate alice false]) by (constructor; [exact Wa|constructor]).
  destruct (C30_create [] [] alice false (ARun_nil []) (Forall_nil _) Wa) as [(ok & s1 & C1) X]. destruct (X _ _ C1) as (O & _ & Y).
  assert (ok = true) as -> by (apply O; split; [intros m p (a & G & _); discriminate|now left]). rewrite Ia in Y. destruct (Y eq_refl) as (F1 & a1 & G1 & I1 & _). clear X Y O.
  assert (R1 : acct_run [] [OCreate alice false] s1) by (econstructor; [exact C1|constructor]).
  destruct (C30_list _ s1 (repeat 7 32) true R1 W1) as [(ok & s2 & C2) X]. destruct (X _ _ C2) as (_ & F2 & Y). destruct (Y _ G1) as (a2 & G2 & I2 & _). clear X Y.
  rewrite I1 in I2.
  assert (R2 : acct_run [] [OCreate alice false; OPush (repeat 7 32)] s2) by (econstructor; [exact C1|]; econstructor; [exact C2|constructor]).
  assert (W2 : Forall op_wire [OCreate alice false; OPush (repeat 7 32)]) by (constructor; [exact Wa|constructor; [exact B7|constructor]]).
  assert (E2 : forall m, m <> hex_encode (repeat 7 32) -> mget s2 m = None) by (intros m Ne; rewrite F2, F1 by auto; reflexivity).
  destruct (C30_create _ s2 bob false R2 W2 Wb) as [(ok3 & s3 & C3) X]. destruct (X _ _ C3) as (O & _ & Y).
  assert (ok3 = true) as ->.
  { apply O. rewrite Ib. split; [|left; apply E2, N79]. intros m p (a & G & _ & I & K). destruct (list_eq_dec N.eq_dec m (hex_encode (repeat 7 32))) as [->|Ne].
    - rewrite G2 in G. injection G as <-. rewrite I2 in I. injection I as <-. congruence.
    - rewrite E2 in G by auto. discriminate. }
  rewrite Ib in Y. destruct (Y eq_refl) as (F3 & a3 & G3 & I3 & _). clear X Y O.
  assert (R3 : acct_run [] [OCreate alice false; OPush (repeat 7 32); OCreate bob false] s3) by (econstructor; [exact C1|]; econstructor; [exact C2|]; econstructor; [exact C3|constructor]).
  assert (W3 : Forall op_wire [OCreate alice false; OPush (repeat 7 32); OCreate bob false]) by (constructor; [exact Wa|constructor; [exact B7|constructor; [exact Wb|constructor]]]).
  destruct (C30_list _ s3 (repeat 9 32) true R3 W3) as [(ok4 & s4 & C4) X]. destruct (X _ _ C4) as (_ & F4 & Y). destruct (Y _ G3) as (a4 & G4 & I4 & _ & L4). clear X Y.
  rewrite I3 in I4.
  assert (R4 : acct_run [] [OCreate alice false; OPush (repeat 7 32); OCreate bob false; OPush (repeat 9 32)] s4)
    by (econstructor; [exact C1|]; econstructor; [exact C2|]; econstructor; [exact C3|]; econstructor; [exact C4|constructor]).
  assert (W4 : Forall op_wire [OCreate alice false; OPush (repeat 7 32); OCreate bob false; OPush (repeat 9 32)])
    by (constructor; [exact Wa|constructor; [exact B7|constructor; [exact Wb|constructor; [exact B9|constructor]]]]).
  assert (E4 : forall m, m <> hex_encode (repeat 7 32) -> m <> hex_encode (repeat 9 32) -> mget s4 m = None) by (intros m X1 X2; rewrite F4, F3, E2 by auto; reflexivity).
  assert (G7 : mget s4 (hex_encode (repeat 7 32)) = Some a2) by (rewrite F4, F3 by auto; exact G2).
  assert (Lb : forall m p, lists s4 m (bs "bob") p -> m = hex_encode (repeat 9 32) /\ p = bob).
  { intros m p (a & G & _ & I & K). destruct (list_eq_dec N.eq_dec m (hex_encode (repeat 7 32))) as [->|Ne].
    - rewrite G7 in G. injection G as <-. rewrite I2 in I. injection I as <-. congruence.
    - destruct (list_eq_dec N.eq_dec m (hex_encode (repeat 9 32))) as [->|Ne']; [|rewrite E4 in G by auto; discriminate]. split; auto. congruence. }
  assert (L9 : lists s4 (hex_encode (repeat 9 32)) (bs "bob") bob) by (exists a4; rewrite L4; auto).
  pose proof (run_ok _ _ _ empty_ok W4 R4) as [_ OK]. destruct (OK _ _ G7) as (p & l & (f & sec & U & (Pf & _) & _) & _).
  set (s' := mset s4 (account_dir (repeat 7 32)) {| a_user := None; a_cache := a_cache a2 |}).
  assert (Pa : passes s4 (OPush (repeat 7 32)) s').
  { eapply Pa_push; [exact G7|exact U|exact Pf|]. apply (flat_set _ sec). reflexivity. }
  assert (H : hole s' (hex_encode (repeat 7 32))) by (eexists; split; [apply mget_mset_eq|reflexivity]).
  assert (G' : forall m, m <> hex_encode (repeat 7 32) -> mget s' m = mget s4 m) by (intros; now apply mget_mset_ne).
  assert (L' : lists s' (hex_encode (repeat 9 32)) (bs "bob") bob) by (exists a4; rewrite G', L4; auto).
  assert (Lb' : forall m p, lists s' m (bs "bob") p -> m = hex_encode (repeat 9 32)).
  { intros m q (a & G & La & I & K). destruct (list_eq_dec N.eq_dec m (hex_encode (repeat 7 32))) as [->|Ne].
    - destruct H as (h & Gh & Uh). rewrite Gh in G. injection G as <-. unfold identity_of, field in I. rewrite Uh in I. discriminate.
    - apply (Lb m q). exists a. rewrite G' in G; auto. }
  exists s4, s'. split; [exact R4|]. split.
  { pose proof (C30_find _ s4 (bs "bob") R4 W4) as X. destruct (find s4 (bs "bob")) as [q|]; [|now apply X in L9]. destruct X as (m & Lm & _). f_equal. now apply (Lb m). }
  split; [exact Pa|]. split; [exact H|]. split; [exact L'|]. split.
  { destruct (find s' (bs "bob")) as [q|] eqn:F; auto. destruct (find_before _ _ _ _ H F) as (m & Lm & X). apply Lb' in Lm. subst m. congruence. }
  split.
  { rewrite <- Kr in L'. destruct (C90_taken_refuted s' _ _ bob rob H L' Wr) as (s'' & a & C & Ga & I & _).
    - intros m q Lm. rewrite Kr in Lm. apply Lb' in Lm. now subst m.
    - rewrite Ir, G' by auto. apply E4; auto.
    - rewrite Ir in Ga. eauto. }
  intros ok' s'' Bg. now apply (C90_login_refuted true _ _ _ _ H) in Bg.
Qed.
Transparent alice bob rob hex_encode.

(** Alice's account is new and the server dies after it saved whose it is: it is there,
    takes no messages, and cannot be created again. *)
Example alice_half : exists s1, passes [] (OCreate alice false) s1 /\ s1 <> [] /\ ~ (exists ok, acct_step [] (OCreate alice false) ok s1) /\
  exists a, mget s1 (hex_encode (repeat 7 32)) = Some a /\ identity_of a = Some alice /\ a_cache a = None.
Proof.
  destruct wires as (Wa & _). destruct (create_over [] alice false Wa eq_refl eq_refl eq_refl) as [(s' & C) X]. destruct (X _ _ C) as (_ & a' & -> & R & _).
  pose proof C as C'. unfold create in C'. cbn [find mkeys map lex_sort find_in mhas mget andb a_user a_cache db_open] in C'. rewrite (flat_set _ []) in C' by reflexivity.
  destruct C' as (_ & f' & S & E).
  exists (mset [] (account_dir (PublicIdentity_Identity alice)) {| a_user := Some f'; a_cache := None |}). split; [|split; [discriminate|split]].
  - eapply Pa_saved with (f := render [([], [])]) (d := ini_fresh); [split; reflexivity|reflexivity|apply (flat_set _ []); reflexivity|exact S].
  - intros (ok & St). destruct (X _ _ St) as (_ & b & Eb & _ & Cb). apply (f_equal (fun s => mget s (account_dir (PublicIdentity_Identity alice)))) in Eb. rewrite !mget_mset_eq in Eb.
    injection Eb as <-. discriminate.
  - eexists. split; [apply (mget_mset_eq [])|]. split; [|reflexivity]. apply (f_equal (fun s => mget s (account_dir (PublicIdentity_Identity alice)))) in E. rewrite !mget_mset_eq in E.
    injection E as ->. destruct (rec_ok_get _ _ _ R) as (I & _). exact I.
Qed.
(** An account without its file, disabled: nobody is found. *)
Example disabled_case : let s := [(hex_encode (repeat 5 32), {| a_user := Some (render [([], [(bs "listed", bs "1"); (bs "identity", b64_encode (enc PublicIdentity_codec rob))])]); a_cache := Some [] |});
    (hex_encode (repeat 7 32), no_acct)] in
  find s (bs "bob") = Some rob /\ find (fst (disable s (repeat 7 32))) (bs "bob") = None /\ hole (fst (disable s (repeat 7 32))) (46 :: hex_encode (repeat 7 32)).
Proof. split; [vm_compute; reflexivity|]. split; [vm_compute; reflexivity|]. exists no_acct. split; reflexivity. Qed.
(** A creation by force mends it. *)
Example forced_case : hole [(hex_encode (repeat 7 32), no_acct)] (hex_encode (PublicIdentity_Identity alice)) /\
  find [(hex_encode (repeat 7 32), no_acct)] (PublicIdentity_Nick alice) = None /\ pid_wire alice.
Proof. split; [exists no_acct; split; reflexivity|]. split; [reflexivity|apply wires]. Qed.
