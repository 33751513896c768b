(** Lemmas for C67: the files and the invariants. *)
From Verif Require Import Base IniModel IniMemProofs IniFileProofs XdrModel XdrProofs RpcModel RpcProofs IdentityModel StrconvModel ServerDbModel ServerDbProofs
  WelcomeModel PinModel.
Local Open Scope N_scope.

(** * Inputs *)

Definition pid_ok (p : PublicIdentity) : Prop :=
  PublicIdentity_ok 0 p /\ Forall is_byte (PublicIdentity_Name p) /\ Forall is_byte (PublicIdentity_Nick p) /\ Forall is_byte (PublicIdentity_SigKey p) /\
  Forall is_byte (PublicIdentity_Key p) /\ Forall is_byte (PublicIdentity_Identity p) /\ Forall is_byte (PublicIdentity_Digest p) /\ Forall is_byte (PublicIdentity_Signature p).
Definition me_ok (m : FullIdentity) : Prop :=
  pid_ok (FullIdentity_Public m) /\ size_ok 64 (FullIdentity_PrivateSigKey m) /\ size_ok 1600 (FullIdentity_PrivateKey m) /\
  Forall is_byte (FullIdentity_PrivateSigKey m) /\ Forall is_byte (FullIdentity_PrivateKey m).
Definition text_ok (b : bytes) : Prop := str_ok 0 b /\ Forall is_byte b.

(** Identities that fit the wire, certificates made of bytes, and addresses without
    line breaks and without blanks at the ends. *)
Definition event_ok (e : event) : Prop :=
  match e with
  | Start m => me_ok m
  | Enter name nick addr _ cert p _ => text_ok name /\ text_ok nick /\ clean addr /\ Forall is_byte cert /\ pid_ok p
  | Import addr p cert _ _ _ _ => clean addr /\ Forall is_byte cert /\ pid_ok p
  | Online cert _ => Forall is_byte cert
  | _ => True
  end.

(** * Files *)

Definition put_all (s : section) (kvs : list (bytes * bytes)) : section := fold_left (fun s kv => mset s (fst kv) (snd kv)) kvs s.

Lemma sets_flat kvs : forall d s, db_tables d = [([], s)] -> exists d', sets d kvs = Some d' /\ db_tables d' = [([], put_all s kvs)] /\
  (db_dirty d' = true \/ kvs = []).
Proof.
  induction kvs as [|[k v] r IH]; intros d s T; cbn [sets].
  - exists d. auto.
  - rewrite (flat_set d s) by auto. destruct (IH {| db_tables := [([], mset s k v)]; db_dirty := true; db_created := db_created d |} (mset s k v) eq_refl) as (d' & E & T' & D).
    exists d'. split; auto. split; auto. left. destruct D as [D| ->]; auto. cbn in E. injection E as <-. reflexivity.
Qed.

Lemma put_all_keys kvs : forall s, NoDup (mkeys s) -> NoDup (mkeys (put_all s kvs)).
Proof. induction kvs as [|[k v] r IH]; intros s N; cbn; auto. apply IH. now apply NoDup_mset. Qed.
Lemma put_all_clean kvs : forall s, clean_section s -> Forall (fun kv => clean_key (fst kv) /\ clean (snd kv)) kvs -> clean_section (put_all s kvs).
Proof.
  induction kvs as [|[k v] r IH]; intros s C F; cbn; auto. inversion F; subst. cbn in H1. apply IH; auto. apply clean_section_set; tauto.
Qed.

Definition flat_file (fl : option bytes) (s : section) : Prop :=
  match fl with None => s = [] | Some f => flat f s end.

Lemma written_flat fl s kvs : flat_file fl s -> kvs <> [] -> Forall (fun kv => clean_key (fst kv) /\ clean (snd kv)) kvs ->
  (exists f', written fl kvs f') /\
  forall f', written fl kvs f' -> exists s', flat f' s' /\ forall k, mget s' k = mget (put_all s kvs) k.
Proof.
  intros F NE C.
  assert (X : exists f d, db_open fl = Some (f, d) /\ db_tables d = [([], s)] /\ NoDup (mkeys s) /\ clean_section s).
  { destruct fl as [f|]; cbn in F.
    - destruct F as (P & N & C'). exists f, (opened [([], s)] false). cbn. rewrite P. auto.
    - subst s. exists (render [([], [])]), ini_fresh. cbn. repeat split; constructor. }
  destruct X as (f & d & O & T & N & Cs). destruct (sets_flat kvs d s T) as (d' & E & T' & D). destruct D as [D|D]; [|contradiction].
  destruct (saved_flat f d' (put_all s kvs) [] T') as [A B].
  - now apply put_all_keys.
  - now apply put_all_clean.
  - congruence.
  - split.
    + destruct A as (f' & A). exists f', f, d, d'. auto.
    + intros f' (f1 & d1 & d1' & O1 & E1 & S1). rewrite O in O1. injection O1 as <- <-. rewrite E in E1. injection E1 as <-. auto.
Qed.

Lemma fixed_bytes n b : Forall is_byte b -> Forall is_byte (enc (xfixed n) b).
Proof.
  intros F. cbn. unfold enc_fixed. apply Forall_app. split; auto. apply Forall_forall. intros x H. apply repeat_spec in H. subst. unfold is_byte. lia.
Qed.
Lemma opaque_bytes s : Forall is_byte s -> Forall is_byte (enc xopaque s).
Proof. intros F. cbn [enc xopaque]. apply Forall_app. split; [apply be_bytes|]. now apply (fixed_bytes 0). Qed.
Lemma pair_bytes {A B} (a : codec A) (b : codec B) x y : Forall is_byte (enc a x) -> Forall is_byte (enc b y) -> Forall is_byte (enc (xpair a b) (x, y)).
Proof. intros X Y. cbn. apply Forall_app. auto. Qed.
Lemma pid_bytes p : pid_ok p -> Forall is_byte (enc PublicIdentity_codec p).
Proof.
  intros (_ & B1 & B2 & B3 & B4 & B5 & B6 & B7). unfold PublicIdentity_codec, xiso. cbn [enc].
  repeat apply pair_bytes; auto using opaque_bytes, fixed_bytes.
Qed.
Lemma me_bytes m : me_ok m -> Forall is_byte (enc FullIdentity_codec m).
Proof.
  intros (P & _ & _ & B1 & B2). unfold FullIdentity_codec, xiso at 1.
  change (Forall is_byte (enc (xpair PublicIdentity_codec (xpair (xfixed 64) (xfixed 1600))) (FullIdentity_Public m, (FullIdentity_PrivateSigKey m, FullIdentity_PrivateKey m)))).
  apply pair_bytes; [now apply pid_bytes|]. apply pair_bytes; now apply fixed_bytes.
Qed.
Lemma pid_round p : pid_ok p -> dec PublicIdentity_codec 0 (enc PublicIdentity_codec p) = Some (p, []).
Proof. intros (O & _). destruct good_PublicIdentity as [RT _]. pose proof (RT 0 p [] O) as X. now rewrite app_nil_r in X. Qed.
Lemma me_round m : me_ok m -> dec FullIdentity_codec 0 (enc FullIdentity_codec m) = Some (m, []).
Proof.
  intros ((O & _) & O1 & O2 & _). destruct good_FullIdentity as [RT _]. assert (F : FullIdentity_ok 0 m) by (unfold FullIdentity_ok; auto).
  pose proof (RT 0 m [] F) as X. now rewrite app_nil_r in X.
Qed.

Lemma names_clean : Forall (fun k => clean_key k) [bs "server"; bs "serveridentity"; bs "servercert"; bs "myidentity"; bs "directory"].
Proof.
  repeat constructor; cbn; intuition discriminate.
Qed.
Lemma clean_bool b : clean (format_bool b).
Proof. destruct b; apply clean_visible; cbn; repeat (apply Forall_cons; [lia|]); constructor. Qed.

Lemma record_clean addr p cert m : clean addr -> pid_ok p -> Forall is_byte cert -> me_ok m ->
  Forall (fun kv => clean_key (fst kv) /\ clean (snd kv)) (server_record addr p cert m).
Proof.
  intros A P C M. pose proof names_clean as N. inversion N as [|? ? N1 N']; subst. inversion N' as [|? ? N2 N'']; subst. inversion N'' as [|? ? N3 N3']; subst. inversion N3' as [|? ? N4 _]; subst.
  unfold server_record. repeat (apply Forall_cons; [cbn [fst snd]; split; auto; apply clean_b64; auto using pid_bytes, me_bytes|]). constructor.
Qed.
Lemma imported_clean addr p cert b : clean addr -> pid_ok p -> Forall is_byte cert ->
  Forall (fun kv => clean_key (fst kv) /\ clean (snd kv)) (imported_record addr p cert b).
Proof.
  intros A P C. pose proof names_clean as N. inversion N as [|? ? N1 N']; subst. inversion N' as [|? ? N2 N'']; subst. inversion N'' as [|? ? N3 N3']; subst. inversion N3' as [|? ? _ N4']; subst. inversion N4' as [|? ? N5 _]; subst.
  unfold imported_record. repeat (apply Forall_cons; [cbn [fst snd]; split; auto using clean_b64, pid_bytes, clean_bool|]). constructor.
Qed.

(** What a file says: the four records. *)
Definition says (s : section) (addr : bytes) (p : PublicIdentity) (cert : bytes) (m : option FullIdentity) : Prop :=
  mget s (bs "server") = Some addr /\ mget s (bs "serveridentity") = Some (b64_encode (enc PublicIdentity_codec p)) /\
  mget s (bs "servercert") = Some (b64_encode cert) /\
  mget s (bs "myidentity") = match m with Some m => Some (b64_encode (enc FullIdentity_codec m)) | None => None end /\
  clean addr /\ pid_ok p /\ Forall is_byte cert /\ match m with Some m => me_ok m | None => True end.
Definition says_nothing (s : section) : Prop :=
  mget s (bs "server") = None /\ mget s (bs "serveridentity") = None /\ mget s (bs "servercert") = None /\ mget s (bs "myidentity") = None.

Lemma load_says f s addr p cert m fresh : flat f s -> says s addr p cert m ->
  load (Some f) fresh = Some match m with
    | Some m => mkClient addr (Some p) cert None m None Main
    | None => mkClient addr (Some p) cert None fresh None Welcoming end.
Proof.
  intros (P & _) (S1 & S2 & S3 & S4 & _ & Op & Oc & Om). unfold load. rewrite P. cbv zeta. unfold parse_my_server, parse_my_identity, decoded.
  rewrite !(flat_get _ s) by reflexivity. rewrite S1, S2, S3, S4, !b64_round, pid_round by auto using pid_bytes.
  destruct m as [m|]; [|reflexivity]. now rewrite b64_round, me_round by auto using me_bytes.
Qed.
Lemma load_nothing f s fresh : flat f s -> says_nothing s -> load (Some f) fresh = None.
Proof.
  intros (P & _) (S1 & _). unfold load. rewrite P. cbv zeta. unfold parse_my_server. rewrite (flat_get _ s) by reflexivity. now rewrite S1.
Qed.

(** The file in every state: missing, just created, with or without an account. *)
Definition filed (fl : option bytes) (x : option (bytes * PublicIdentity * bytes * option FullIdentity)) : Prop :=
  exists s, flat_file fl s /\ match x with Some (a, p, c, m) => says s a p c m | None => says_nothing s end.

Lemma filed_none : filed None None.
Proof. exists []. split; [reflexivity|]. repeat split. Qed.
Lemma filed_created : filed (Some (render [([], [])])) None.
Proof. exists []. split; [apply render_fresh|]. repeat split. Qed.

Ltac look := repeat (first [rewrite mget_mset_eq; reflexivity | rewrite mget_mset_ne by discriminate]).
Lemma put_record s addr p cert m : clean addr -> pid_ok p -> Forall is_byte cert -> me_ok m -> says (put_all s (server_record addr p cert m)) addr p cert (Some m).
Proof.
  intros A P C M. unfold put_all, server_record. cbn [fold_left fst snd]. unfold says.
  split; [look|]. split; [look|]. split; [look|]. split; [look|]. auto.
Qed.
Lemma put_imported s addr p cert b om : clean addr -> pid_ok p -> Forall is_byte cert ->
  mget s (bs "myidentity") = match om with Some m => Some (b64_encode (enc FullIdentity_codec m)) | None => None end ->
  match om with Some m => me_ok m | None => True end ->
  says (put_all s (imported_record addr p cert b)) addr p cert om.
Proof.
  intros A P C G M. unfold put_all, imported_record. cbn [fold_left fst snd]. unfold says.
  split; [look|]. split; [look|]. split; [look|]. split; [look; exact G|]. auto.
Qed.

Lemma says_ext s s' a p c m : (forall k, mget s' k = mget s k) -> says s a p c m -> says s' a p c m.
Proof. intros E. unfold says. now rewrite !E. Qed.

Lemma written_record fl x addr p cert m : filed fl x -> clean addr -> pid_ok p -> Forall is_byte cert -> me_ok m ->
  (exists f', written fl (server_record addr p cert m) f') /\
  forall f', written fl (server_record addr p cert m) f' -> filed (Some f') (Some (addr, p, cert, Some m)).
Proof.
  intros (s & F & _) A P C M. destruct (written_flat fl s (server_record addr p cert m) F) as [W1 W2]; [discriminate|now apply record_clean|].
  split; auto. intros f' W. destruct (W2 f' W) as (s' & F' & G). exists s'. split; [exact F'|]. eapply says_ext; [exact G|]. now apply put_record.
Qed.
Lemma written_imported fl x addr p cert b : filed fl x -> clean addr -> pid_ok p -> Forall is_byte cert ->
  (exists f', written fl (imported_record addr p cert b) f') /\
  forall f', written fl (imported_record addr p cert b) f' -> filed (Some f') (Some (addr, p, cert, match x with Some (_, _, _, m) => m | None => None end)).
Proof.
  intros (s & F & X) A P C. destruct (written_flat fl s (imported_record addr p cert b) F) as [W1 W2]; [discriminate|now apply imported_clean|].
  split; auto. intros f' W. destruct (W2 f' W) as (s' & F' & G). exists s'. split; [exact F'|]. eapply says_ext; [exact G|]. apply put_imported; auto.
  - destruct x as [[[[? ?] ?] m]|]; [apply X|apply X].
  - destruct x as [[[[? ?] ?] m]|]; [apply X|auto].
Qed.

Lemma interrupted_record fl x addr p cert m fl' : filed fl x -> clean addr -> pid_ok p -> Forall is_byte cert -> me_ok m ->
  interrupted fl (server_record addr p cert m) fl' -> exists x', filed fl' x' /\ (x' = x \/ x' = None \/ x' = Some (addr, p, cert, Some m)).
Proof.
  intros F A P C M [->|[[-> ->]|[[_ ->]|(f' & W & ->)]]].
  - exists x. auto.
  - exists None. split; [apply filed_created|auto].
  - exists None. split; [apply filed_none|auto].
  - eexists. split; [apply (proj2 (written_record fl x addr p cert m F A P C M) f' W)|auto].
Qed.
Lemma interrupted_imported fl x addr p cert b fl' : filed fl x -> clean addr -> pid_ok p -> Forall is_byte cert ->
  interrupted fl (imported_record addr p cert b) fl' -> exists x', filed fl' x' /\ (x' = x \/ x' = None \/ exists om, x' = Some (addr, p, cert, om)).
Proof.
  intros F A P C [->|[[-> ->]|[[_ ->]|(f' & W & ->)]]].
  - exists x. auto.
  - exists None. split; [apply filed_created|auto].
  - exists None. split; [apply filed_none|auto].
  - eexists. split; [apply (proj2 (written_imported fl x addr p cert b F A P C) f' W)|eauto].
Qed.

(** * Whom the client trusts *)

(** The user agreed to the record of [p], or imported it by force. *)
Definition agreed (h : list obs) (host c0 : bytes) (p : PublicIdentity) : Prop := In (Agreed host c0 p) h \/ In (Forced host c0 p) h.
(** And [c] is the certificate that came with it, or one the client refused and the
    user accepted afterwards, or, unless [strict], that of the connection an account
    was created on. *)
Definition trusted (strict : bool) (h : list obs) (p : PublicIdentity) (c : bytes) : Prop :=
  exists host c0, agreed h host c0 p /\
    (c = c0 \/ (In (Refused c) h /\ In (Pinned c) h) \/ (strict = false /\ exists me, In (Created c me) h)).

(** No import, and no account creation that breaks off after its reply. *)
Definition plain_outcome (o : outcome) : Prop := match o with NoSession | NoWelcome | NoFile => False | _ => True end.
Definition plain (e : event) : Prop :=
  match e with Import _ _ _ _ _ _ _ => False | Enter _ _ _ _ _ _ o | Yes o => plain_outcome o | _ => True end.

Lemma agreed_mono h h' host c0 p : agreed h host c0 p -> agreed (h' ++ h) host c0 p.
Proof. intros [H|H]; [left|right]; apply in_or_app; auto. Qed.
Lemma trusted_mono st h h' p c : trusted st h p c -> trusted st (h' ++ h) p c.
Proof.
  intros (host & c0 & A & B). exists host, c0. split; [now apply agreed_mono|]. destruct B as [B|[[B1 B2]|[B0 [me B]]]]; [auto| |].
  - right. left. split; apply in_or_app; auto.
  - right. right. split; auto. exists me. apply in_or_app. auto.
Qed.

Definition window_ok (st : bool) (h : list obs) (srv : option PublicIdentity) (crt : bytes) (w : window) : Prop :=
  match w with
  | Welcoming => st = true -> srv = None
  | Accepting host cert p _ => Forall is_byte cert /\ pid_ok p /\ In (Shown host cert (PublicIdentity_Identity p)) h /\ (st = true -> srv = None)
  | Main => exists p, srv = Some p /\ trusted st h p crt
  end.
Definition client_ok (st : bool) (h : list obs) (c : client) : Prop :=
  clean (c_addr c) /\ Forall is_byte (c_cert c) /\ me_ok (c_me c) /\
  (forall p, c_server c = Some p -> pid_ok p /\ exists host c0, agreed h host c0 p) /\
  (forall x, c_prov c = Some x -> Forall is_byte x /\ In (Refused x) h) /\
  window_ok st h (c_server c) (c_cert c) (c_win c).
Definition file_ok (st : bool) (h : list obs) (fl : option bytes) : Prop :=
  exists x, filed fl x /\ match x with Some (_, p, c, m) => trusted st h p c /\ (st = true -> m <> None) | None => True end.
(** What is true of each entry, given those before it. *)
Definition entry_ok (st : bool) (h : list obs) (o : obs) : Prop :=
  match o with
  | Session c k => exists p, k = PublicIdentity_Key p /\ trusted st h p c
  | Agreed host c p => In (Shown host c (PublicIdentity_Identity p)) h
  | Pinned c => In (Refused c) h
  | _ => True
  end.
Fixpoint hist_ok (st : bool) (h : list obs) : Prop :=
  match h with [] => True | o :: r => entry_ok st r o /\ hist_ok st r end.
Definition inv (st : bool) (s : state) : Prop :=
  match run s with Some c => client_ok st (hist s) c | None => True end /\ file_ok st (hist s) (file s) /\ hist_ok st (hist s).

Lemma hist_at st h2 o h1 : hist_ok st (h2 ++ o :: h1) -> entry_ok st h1 o.
Proof. induction h2 as [|x r IH]; cbn; tauto. Qed.

Lemma file_mono st h h' fl : file_ok st h fl -> file_ok st (h' ++ h) fl.
Proof. intros (x & F & T). exists x. split; auto. destruct x as [[[[? ?] ?] ?]|]; auto. destruct T. split; auto. now apply trusted_mono. Qed.
Lemma client_mono st h h' c : client_ok st h c -> client_ok st (h' ++ h) c.
Proof.
  intros (A & B & C & D & E & F). unfold client_ok. split; auto. split; auto. split; auto. split; [|split].
  - intros p H. destruct (D p H) as (P & host & c0 & G). split; auto. exists host, c0. now apply agreed_mono.
  - intros x H. destruct (E x H). split; auto. apply in_or_app; auto.
  - unfold window_ok in *. destruct (c_win c); auto.
    + destruct F as (F1 & F2 & F3 & F4). split; auto. split; auto. split; auto. apply in_or_app. auto.
    + destruct F as (p & S & T). exists p. split; auto. now apply trusted_mono.
Qed.

Lemma renamed m name nick : me_ok m -> text_ok name -> text_ok nick -> me_ok (rename m name nick).
Proof.
  intros (P & R) (N1 & N2) (K1 & K2). destruct P as ((O1 & O2 & O3) & B1 & B2 & B3). unfold me_ok, rename, pid_ok, PublicIdentity_ok in *. cbn [FullIdentity_Public FullIdentity_PrivateSigKey FullIdentity_PrivateKey PublicIdentity_Name PublicIdentity_Nick PublicIdentity_SigKey PublicIdentity_Key PublicIdentity_Identity PublicIdentity_Digest PublicIdentity_Signature].
  tauto.
Qed.

Section Crypto.
Variable sha256 : bytes -> bytes.
Variable sign : bytes -> bytes -> bytes.
Variable verify_sig : bytes -> bytes -> bytes -> bool.
Hypothesis sha_ok : forall x, size_ok 32 (sha256 x) /\ Forall is_byte (sha256 x).
Hypothesis sign_ok : forall k x, size_ok 64 (sign k x) /\ Forall is_byte (sign k x).

Lemma recalculated m m' : recalculate_digest sha256 sign verify_sig m = Ok m' -> me_ok m -> me_ok m'.
Proof.
  unfold recalculate_digest. destruct (verify _ _ _); [|discriminate]. intros E. injection E as <-.
  intros ((O & B1 & B2 & B3 & B4 & B5 & _) & R). unfold me_ok, pid_ok, PublicIdentity_ok in *. cbn.
  destruct (sha_ok (digest_input (FullIdentity_Public m))), (sign_ok (FullIdentity_PrivateSigKey m) (sha256 (digest_input (FullIdentity_Public m)))). tauto.
Qed.
Lemma finalize_ok st c fl cert p token o r fl' h0 h : finalize sha256 sign verify_sig c fl cert p token o r fl' h0 ->
  client_ok st h c -> pid_ok p -> Forall is_byte cert -> (exists host c0, agreed h host c0 p /\ (st = true -> c0 = cert)) -> (st = true -> plain_outcome o) -> c_win c <> Main ->
  file_ok st h fl -> hist_ok st h ->
  match r with Some c' => client_ok st (h0 ++ h) c' | None => True end /\ file_ok st (h0 ++ h) fl' /\ hist_ok st (h0 ++ h).
Proof.
  intros F (A & B & C & D & E & W) P Ce (host & c0 & G & G') PO NM Fi S.
  assert (T : forall h1, (exists me, In (Created cert me) h1) -> trusted st (h1 ++ h) p cert).
  { intros h1 (me & I). exists host, c0. split; [now apply agreed_mono|]. destruct st; [left; symmetry; auto|]. right. right. split; auto. exists me. apply in_or_app. auto. }
  assert (K : forall h1 me srv crt on w, me_ok me -> (forall q, srv = Some q -> pid_ok q /\ exists host c0, agreed (h1 ++ h) host c0 q) -> Forall is_byte crt ->
     window_ok st (h1 ++ h) srv crt w ->
     client_ok st (h1 ++ h) (mkClient (c_addr c) srv crt (c_prov c) me on w)).
  { intros h1 me srv crt on w M Q Z X. unfold client_ok. cbn. split; auto. split; auto. split; auto. split; auto. split; auto.
    intros x Hx. destruct (E x Hx). split; auto. apply in_or_app; auto. }
  assert (Wn : forall h1, window_ok st (h1 ++ h) (c_server c) (c_cert c) (c_win c)).
  { intros h1. unfold window_ok in *. destruct (c_win c); [auto| |contradiction]. destruct W as (W1 & W2 & W3 & W4). split; auto. split; auto. split; auto. apply in_or_app. auto. }
  assert (Q : forall h1 q, Some p = Some q -> pid_ok q /\ exists host c0, agreed (h1 ++ h) host c0 q).
  { intros h1 q Hq. injection Hq as <-. split; auto. exists host, c0. now apply agreed_mono. }
  assert (Dx : forall h1 q, c_server c = Some q -> pid_ok q /\ exists host c0, agreed (h1 ++ h) host c0 q).
  { intros h1 q Hq. destruct (D q Hq) as (D1 & h' & c' & D2). split; auto. exists h', c'. now apply agreed_mono. }
  assert (Wx : forall h1, st = false -> window_ok st (h1 ++ h) (Some p) cert (c_win c)).
  { intros h1 X. pose proof (Wn h1) as Y. unfold window_ok in *. destruct (c_win c); [congruence| |contradiction]. destruct Y as (Y1 & Y2 & Y3 & Y4). split; auto. split; auto. split; auto. congruence. }
  assert (St : ~ plain_outcome o -> st = false) by (intros X; destruct st; auto; exfalso; auto).
  destruct F as [o R|me R|me R|me R|me R NW|me fl' R I|me f' R I].
  - cbn. split; [unfold client_ok; auto 10|]. auto.
  - pose proof (recalculated _ _ R C) as M. split; [|split].
    + apply K; auto.
    + now apply (file_mono st h [_]).
    + cbn. auto.
  - pose proof (recalculated _ _ R C) as M. split; [|split].
    + apply K; auto.
    + now apply (file_mono st).
    + cbn. auto.
  - pose proof (recalculated _ _ R C) as M. split; [|split].
    + apply K; auto.
    + now apply (file_mono st).
    + cbn. split; auto. exists p. split; auto. apply (T [_; _]). cbn. eauto.
  - pose proof (recalculated _ _ R C) as M. split; [|split].
    + apply K; auto.
    + now apply (file_mono st).
    + cbn. split; auto. exists p. split; auto. apply (T [_; _]). cbn. eauto.
  - pose proof (recalculated _ _ R C) as M. split; [exact Logic.I|split].
    + destruct Fi as (x & Fx & Tx). destruct (interrupted_record _ _ _ _ _ _ _ Fx A P Ce M I) as (x' & Fx' & Y).
      exists x'. split; auto. destruct Y as [->|[->| ->]]; auto.
      * destruct x as [[[[? ?] ?] ?]|]; auto. destruct Tx. split; auto. now apply (trusted_mono st).
      * split; [|discriminate]. apply (T [_; _; _]). cbn. eauto.
    + cbn. split; auto. exists p. split; auto. apply (T [_; _]). cbn. eauto.
  - pose proof (recalculated _ _ R C) as M.
    assert (X : trusted st ([Session cert (PublicIdentity_Key p); Created cert (FullIdentity_Public me); Asked cert token (FullIdentity_Public me)] ++ h) p cert) by (apply T; cbn; eauto).
    split; [|split].
    + apply K; auto. exists p. auto.
    + destruct Fi as (x & Fx & Tx). destruct (written_record _ _ _ _ _ _ Fx A P Ce M) as [_ Y].
      eexists. split; [apply (Y f' I)|]. cbv beta iota. split; [exact X|discriminate].
    + cbn. split; auto. exists p. split; auto. apply (T [_; _]). cbn. eauto.
Qed.

Lemma load_ok st h fl fresh c : file_ok st h fl -> me_ok fresh -> load fl fresh = Some c -> client_ok st h c.
Proof.
  intros (x & (s & Fl & Sx) & T) M L.
  assert (N : client_ok st h (new_client fresh)).
  { unfold client_ok. cbn. split; [split; cbn; auto|]. split; auto. split; auto. split; [discriminate|]. split; [discriminate|]. auto. }
  destruct fl as [f|]; cbn in Fl.
  - destruct x as [[[[a p] ce] m]|].
    + rewrite (load_says f s a p ce m fresh Fl Sx) in L. injection L as <-. destruct Sx as (_ & _ & _ & _ & A & P & Ce & Mm). destruct T as [T Tm].
      assert (G : exists host c0, agreed h host c0 p) by (destruct T as (host & c0 & G & _); eauto).
      destruct m as [m|]; unfold client_ok; cbn.
      * split; auto. split; auto. split; auto. split; [intros q Hq; injection Hq as <-; auto|]. split; [discriminate|]. eauto.
      * split; auto. split; auto. split; auto. split; [intros q Hq; injection Hq as <-; auto|]. split; [discriminate|]. intros X. now destruct (Tm X).
    + rewrite (load_nothing f s fresh Fl Sx) in L. discriminate.
  - cbn in L. injection L as <-. exact N.
Qed.

Ltac parts := unfold client_ok; cbn [c_addr c_server c_cert c_prov c_me c_win typed to_window]; split; [|split; [|split; [|split; [|split]]]]; auto using renamed; try exact I; try (cbn; auto).
Lemma step_inv st s e s' : step sha256 sign verify_sig s e s' -> event_ok e -> (st = true -> plain e) -> inv st s -> inv st s'.
Proof.
  intros S O PL (R & F & E).
  destruct S as [fresh c Rn L|fresh Rn L| |name nick addr token cert pid o c Rn W|name nick addr token cert pid o c Rn W N1 N2 N3 Sv
    |name nick addr token cert pid o c p r f' h Rn W N1 N2 N3 Sv Fz|o c host cert pid token r f' h Rn W Fz|c host cert pid token Rn W
    |cert c p Rn W On Sv Ec|cert c Rn W On Ec|cert b c Rn W On Ec|c Rn|o c Rn W X|c p cert f' Rn W On Pv Sv Wr|c p cert Rn W On Pv Sv Wr
    |c p cert f' Rn W On Pv Sv Wr|addr pid cert dir yes o X|addr pid cert dir o X|addr pid cert dir f' X Wr|addr pid cert dir f' X Wr
    |addr pid cert dir yes f' Wr|addr pid cert dir yes f' Wr]; unfold inv; cbn [run file hist]; try rewrite Rn in R; cbn [event_ok] in O.
  - split; auto. eapply load_ok; eauto.
  - rewrite Rn. auto.
  - auto.
  - split; auto. destruct R as (A & B & C & D & G & Wd). destruct O as (O1 & O2 & O3 & O4 & O5). parts.
  - pose proof R as R0. destruct R as (A & B & C & D & G & Wd). destruct O as (O1 & O2 & O3 & O4 & O5). split; [|split].
    + apply (client_mono st _ [Shown addr cert (PublicIdentity_Identity pid)]) in R0. destruct R0 as (A' & B' & C' & D' & G' & _). parts.
    + now apply (file_mono st _ [_]).
    + cbn; auto.
  - destruct R as (A & B & C & D & G & Wd). destruct O as (O1 & O2 & O3 & O4 & O5). destruct (D p Sv) as (P & Ag).
    rewrite W in Wd. cbn in Wd. assert (Sf : st = false) by (destruct st; auto; rewrite Wd in Sv; [discriminate|reflexivity]).
    eapply (finalize_ok st); eauto.
    + parts. rewrite W. exact Wd.
    + destruct Ag as (host & c0 & Ag). exists host, c0. split; auto. congruence.
    + cbn. congruence.
  - pose proof R as (A & B & C & D & G & Wd). rewrite W in Wd. destruct Wd as (Ce & P & Sh & Sn).
    eapply (finalize_ok st); eauto.
    + now apply (client_mono st _ [_]).
    + exists host, cert. split; auto. left. now left.
    + congruence.
    + now apply (file_mono st _ [_]).
    + cbn; auto.
  - split; auto. destruct R as (A & B & C & D & G & Wd). rewrite W in Wd. destruct Wd as (_ & _ & _ & Wd). parts.
  - pose proof R as (A & B & C & D & G & Wd). rewrite W in Wd. destruct Wd as (q & Sq & T). rewrite Sv in Sq. injection Sq as <-. split; [|split].
    + apply (client_mono st _ [_]). unfold client_ok. cbn. rewrite Sv in *. split; auto. split; auto. split; auto. split; auto. split; auto. exists p. auto.
    + now apply (file_mono st _ [_]).
    + cbn. split; auto. exists p. split; auto. now rewrite Ec.
  - rewrite Rn. auto.
  - pose proof R as (A & B & C & D & G & Wd). rewrite W in Wd. split; [|split].
    + unfold client_ok. cbn [c_addr c_server c_cert c_prov c_me c_win]. split; auto. split; auto. split; auto. split; [|split].
      * intros q Hq. destruct (D q Hq) as (D1 & h' & c' & D2). split; auto. exists h', c'. now apply (agreed_mono _ [_]).
      * intros x Hx. injection Hx as <-. split; [exact O|now left].
      * destruct Wd as (q & Sq & T). exists q. split; auto. now apply (trusted_mono st _ [_]).
    + now apply (file_mono st _ [_]).
    + cbn; auto.
  - split; auto.
  - rewrite Rn. auto.
  - pose proof R as (A & B & C & D & G & Wd). destruct (G cert Pv) as (Ce & Rf). destruct (D p Sv) as (P & host & c0 & Ag).
    assert (T : trusted st (Pinned cert :: hist s) p cert).
    { exists host, c0. split; [now apply (agreed_mono _ [_])|]. right. left. cbn. auto. }
    split; [|split].
    + unfold client_ok. cbn [c_addr c_server c_cert c_prov c_me c_win]. split; auto. split; auto. split; auto. split; [|split].
      * intros q Hq. destruct (D q Hq) as (D1 & h' & c' & D2). split; auto. exists h', c'. now apply (agreed_mono _ [_]).
      * discriminate.
      * exists p. auto.
    + destruct F as (x & Fx & Tx). destruct (written_record _ _ _ _ _ _ Fx A P Ce C) as [_ Y]. eexists. split; [apply (Y f' Wr)|]. split; [exact T|discriminate].
    + cbn; auto.
  - rewrite Rn. auto.
  - pose proof R as (A & B & C & D & G & Wd). destruct (G cert Pv) as (Ce & Rf). destruct (D p Sv) as (P & host & c0 & Ag).
    assert (T : trusted st (Pinned cert :: hist s) p cert).
    { exists host, c0. split; [now apply (agreed_mono _ [_])|]. right. left. cbn. auto. }
    split; [exact I|]. split.
    + destruct F as (x & Fx & Tx). destruct (interrupted_record _ _ _ _ _ _ _ Fx A P Ce C Wr) as (x' & Fx' & Y).
      exists x'. split; auto. destruct Y as [->|[->| ->]]; auto.
      * destruct x as [[[[? ?] ?] ?]|]; auto. destruct Tx. split; auto. now apply (trusted_mono st _ [_]).
      * split; [exact T|discriminate].
    + cbn; auto.
  - auto.
  - rewrite X in F. split; [|split].
    + destruct (run s); auto. now apply (client_mono st _ [_]).
    + now apply (file_mono st _ [_]).
    + cbn; auto.
  - destruct O as (A & Ce & P). assert (Sf : st = false) by (destruct st; auto; destruct (PL eq_refl)). rewrite X in F. split; [|split].
    + destruct (run s); auto. now apply (client_mono st _ [_; _]).
    + destruct F as (x & Fx & Tx). destruct (written_imported _ _ _ _ _ dir Fx A P Ce) as [_ Y]. eexists. split; [apply (Y f' Wr)|].
      split; [exists addr, cert; split; [left; now left|auto]|congruence].
    + cbn; auto.
  - destruct O as (A & Ce & P). assert (Sf : st = false) by (destruct st; auto; destruct (PL eq_refl)). rewrite X in F. split; [|split].
    + destruct (run s); auto. now apply (client_mono st _ [_; _]).
    + destruct F as (x & Fx & Tx). destruct (interrupted_imported _ _ _ _ _ _ _ Fx A P Ce Wr) as (x' & Fx' & Y).
      exists x'. split; auto. destruct Y as [->|[->|(om & ->)]]; auto.
      * destruct x as [[[[? ?] ?] ?]|]; auto. destruct Tx. split; auto. now apply (trusted_mono st _ [_; _]).
      * split; [exists addr, cert; split; [left; now left|auto]|congruence].
    + cbn; auto.
  - destruct O as (A & Ce & P). assert (Sf : st = false) by (destruct st; auto; destruct (PL eq_refl)). split; [|split].
    + destruct (run s); auto. now apply (client_mono st _ [_]).
    + destruct F as (x & Fx & Tx). destruct (written_imported _ _ _ _ _ dir Fx A P Ce) as [_ Y]. eexists. split; [apply (Y f' Wr)|].
      split; [exists addr, cert; split; [right; now left|auto]|congruence].
    + cbn; auto.
  - destruct O as (A & Ce & P). assert (Sf : st = false) by (destruct st; auto; destruct (PL eq_refl)). split; [|split].
    + destruct (run s); auto. now apply (client_mono st _ [_]).
    + destruct F as (x & Fx & Tx). destruct (interrupted_imported _ _ _ _ _ _ _ Fx A P Ce Wr) as (x' & Fx' & Y).
      exists x'. split; auto. destruct Y as [->|[->|(om & ->)]]; auto.
      * destruct x as [[[[? ?] ?] ?]|]; auto. destruct Tx. split; auto. now apply (trusted_mono st _ [_]).
      * split; [exists addr, cert; split; [right; now left|auto]|congruence].
    + cbn; auto.
Qed.

Lemma start_inv st : inv st start.
Proof. split; [exact I|]. split; [exists None; split; [apply filed_none|exact I]|]. exact I. Qed.
Lemma steps_inv st s l s' : steps sha256 sign verify_sig s l s' -> Forall event_ok l -> (st = true -> Forall plain l) -> inv st s -> inv st s'.
Proof.
  induction 1 as [|s e s' l s'' S T IH]; intros F PL V; auto. inversion F; subst. apply IH; auto.
  - intros X. specialize (PL X). now inversion PL.
  - eapply step_inv; eauto. intros X. specialize (PL X). now inversion PL.
Qed.
End Crypto.
