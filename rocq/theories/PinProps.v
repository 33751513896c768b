(** C67: the server a client talks to is one the user agreed to, and stays it. *)
From Verif Require Import Base IniModel IniMemProofs IniFileProofs XdrModel XdrProofs RpcModel RpcProofs IdentityModel StrconvModel ServerDbModel ServerDbProofs
  WelcomeModel PinModel PinProofs.
Local Open Scope N_scope.

(** The hashes and signatures are as long as the fields they are put in. *)
Definition sizes (sha256 : bytes -> bytes) (sign : bytes -> bytes -> bytes) : Prop :=
  (forall x, size_ok 32 (sha256 x) /\ Forall is_byte (sha256 x)) /\ (forall k x, size_ok 64 (sign k x) /\ Forall is_byte (sign k x)).

(** C67, whom the client talks to: whatever the network shows and wherever things
    break off, a session is with the key of a record the user agreed to before (or
    forced in), and on the certificate of that record, one the user accepted after the
    client had refused it, or that of a connection an account was created on.  What
    the user agrees to, the user was shown, and what is accepted was refused before. *)
Theorem C67_session sha256 sign verify_sig l s : sizes sha256 sign -> steps sha256 sign verify_sig start l s -> Forall event_ok l ->
  (forall h2 c k h1, hist s = h2 ++ Session c k :: h1 ->
    exists host c0 p, (In (Agreed host c0 p) h1 \/ In (Forced host c0 p) h1) /\ k = PublicIdentity_Key p /\
      (c = c0 \/ (In (Refused c) h1 /\ In (Pinned c) h1) \/ exists me, In (Created c me) h1)) /\
  (forall h2 host c p h1, hist s = h2 ++ Agreed host c p :: h1 -> In (Shown host c (PublicIdentity_Identity p)) h1) /\
  (forall h2 c h1, hist s = h2 ++ Pinned c :: h1 -> In (Refused c) h1).
Proof.
  intros [Z1 Z2] S F. assert (V : inv false s) by (eapply steps_inv; eauto; [discriminate|apply start_inv]). destruct V as (_ & _ & H). split; [|split].
  - intros h2 c k h1 E. rewrite E in H. apply hist_at in H. destruct H as (p & K & host & c0 & A & B). exists host, c0, p. split; auto. split; auto.
    destruct B as [B|[B|[_ B]]]; auto.
  - intros h2 host c p h1 E. rewrite E in H. now apply hist_at in H.
  - intros h2 c h1 E. rewrite E in H. now apply hist_at in H.
Qed.
Print Assumptions C67_session.

(** Without imports, and if no account creation breaks off after its reply, the
    certificate is the one shown with the record, or was accepted. *)
Theorem C67_shown sha256 sign verify_sig l s : sizes sha256 sign -> steps sha256 sign verify_sig start l s -> Forall event_ok l -> Forall plain l ->
  forall h2 c k h1, hist s = h2 ++ Session c k :: h1 ->
  exists host c0 p, In (Shown host c0 (PublicIdentity_Identity p)) h1 /\ In (Agreed host c0 p) h1 /\ k = PublicIdentity_Key p /\
    (c = c0 \/ (In (Refused c) h1 /\ In (Pinned c) h1)).
Proof.
  intros [Z1 Z2] S F P. assert (V : inv true s) by (eapply steps_inv; eauto; apply start_inv). destruct V as (_ & _ & H).
  assert (N : forall l s0 s, steps sha256 sign verify_sig s0 l s -> Forall plain l -> forall a b c, In (Forced a b c) (hist s) -> In (Forced a b c) (hist s0)).
  { clear. induction 1 as [|s0 e s1 l s2 S T IH]; intros P a b c I; auto. inversion P; subst. specialize (IH H2 a b c I).
    assert (FZ : forall c0 fl cert pid token o r f h, finalize sha256 sign verify_sig c0 fl cert pid token o r f h -> ~ In (Forced a b c) h).
    { intros c0 fl cert pid token o r f h [ ]; cbn; intuition discriminate. }
    destruct S; cbn [hist] in IH; cbn [plain] in H1; try contradiction; auto; try (destruct IH as [IH|IH]; [discriminate|auto]); try (apply in_app_or in IH as [IH|IH]; [now apply FZ in H9 || (exfalso; eapply FZ; eauto)|]; auto).
    destruct IH as [IH|IH]; [discriminate|auto]. }
  intros h2 c k h1 E. rewrite E in H. pose proof H as H'. apply hist_at in H. destruct H as (p & K & host & c0 & [A|A] & B).
  - exists host, c0, p. destruct (in_split _ _ A) as (u & v & Ev). rewrite Ev in H'.
    replace (h2 ++ Session c k :: u ++ Agreed host c0 p :: v) with ((h2 ++ Session c k :: u) ++ Agreed host c0 p :: v) in H' by (rewrite <- app_assoc; reflexivity).
    apply hist_at in H'. cbn in H'. split; [rewrite Ev; apply in_or_app; right; now right|]. split; auto. split; auto. destruct B as [B|[B|[? _]]]; auto; discriminate.
  - exfalso. apply (N _ _ _ S P host c0 p). rewrite E. apply in_or_app. right. now right.
Qed.
Print Assumptions C67_shown.

(** * After a restart *)

Definition unforced (e : event) : Prop := match e with Import _ _ _ _ force _ _ => force = false | _ => True end.
(** The client as the next start finds it. *)
Definition rested (c : client) : client := mkClient (c_addr c) (c_server c) (c_cert c) None (c_me c) None Main.

Definition in_sync (s : state) : Prop :=
  forall c, run s = Some c -> c_win c = Main -> exists p, c_server c = Some p /\ filed (file s) (Some (c_addr c, p, c_cert c, Some (c_me c))).

Lemma load_filed fl a p c m fresh : filed fl (Some (a, p, c, Some m)) -> load fl fresh = Some (mkClient a (Some p) c None m None Main).
Proof.
  intros (s & F & S). destruct fl as [f|].
  - now rewrite (load_says f s a p c (Some m) fresh F S).
  - cbn in F. subst s. destruct S as (S & _). discriminate.
Qed.
Lemma filed_load fl x fresh c : filed fl x -> load fl fresh = Some c -> c_win c = Main ->
  exists p, c_server c = Some p /\ filed fl (Some (c_addr c, p, c_cert c, Some (c_me c))) /\ c = rested c.
Proof.
  intros Fx L W. pose proof Fx as (s & F & S). destruct fl as [f|]; [|cbn in L; injection L as <-; discriminate].
  destruct x as [[[[a p] ce] m]|].
  - rewrite (load_says f s a p ce m fresh F S) in L. injection L as <-. destruct m as [m|]; [|discriminate]. exists p. cbn. auto.
  - rewrite (load_nothing f s fresh F S) in L. discriminate.
Qed.

Lemma no_file fl a p c m : filed fl (Some (a, p, c, m)) -> fl <> None.
Proof. intros (s & F & S) ->. cbn in F. subst s. destruct S as (S & _). discriminate. Qed.
Lemma sync_step sha256 sign verify_sig s e s' : sizes sha256 sign -> step sha256 sign verify_sig s e s' -> event_ok e -> unforced e -> inv false s -> in_sync s -> in_sync s'.
Proof.
  intros [Z1 Z2] S O NI V Y.
  assert (Fz : forall c fl cert p token o r fl' h0, finalize sha256 sign verify_sig c fl cert p token o r fl' h0 -> client_ok false (hist s) c -> pid_ok p -> Forall is_byte cert -> c_win c <> Main -> file_ok false (hist s) fl ->
     forall c', r = Some c' -> c_win c' = Main -> exists p, c_server c' = Some p /\ filed fl' (Some (c_addr c', p, c_cert c', Some (c_me c')))).
  { intros c fl cert p token o r fl' h0 F (A & B & C & _) P Ce NM (x & Fx & _) c' -> W. inversion F; subst; cbn in W; try contradiction.
    exists p. cbn. split; auto. apply (written_record fl x); auto. eapply recalculated; eauto. }
  destruct V as (R & F & _). unfold in_sync.
  destruct S as [fresh c Rn L|fresh Rn L| |name nick addr token cert pid o c Rn W|name nick addr token cert pid o c Rn W N1 N2 N3 Sv
    |name nick addr token cert pid o c p r f' h Rn W N1 N2 N3 Sv Fn|o c host cert pid token r f' h Rn W Fn|c host cert pid token Rn W
    |cert c p Rn W On Sv Ec|cert c Rn W On Ec|cert b c Rn W On Ec|c Rn|o c Rn W X|c p cert f' Rn W On Pv Sv Wr|c p cert Rn W On Pv Sv Wr
    |c p cert f' Rn W On Pv Sv Wr|addr pid cert dir yes o X|addr pid cert dir o X|addr pid cert dir f' X Wr|addr pid cert dir f' X Wr
    |addr pid cert dir yes f' Wr|addr pid cert dir yes f' Wr]; try discriminate;
    cbn [run file]; try (intros c' E' W'; injection E' as <-); try exact Y; try (now intros; discriminate).
  - destruct F as (x & Fx & _). destruct (filed_load _ _ _ _ Fx L W') as (p & A & B & _). eauto.
  - cbn in W'. congruence.
  - rewrite Rn in R. destruct R as (A & B & C & D & G & Wd). destruct O as (O1 & O2 & O3 & O4 & O5). intros c' E' W'. destruct (D p Sv) as (P & _).
    eapply (Fz _ _ _ _ _ _ _ _ _ Fn); eauto; [|cbn; congruence]. unfold client_ok. cbn. rewrite W. split; [auto|]. split; [auto|]. split; [now apply renamed|]. split; [auto|]. split; [auto|]. discriminate.
  - rewrite Rn in R. pose proof R as (A & B & C & D & G & Wd). rewrite W in Wd. destruct Wd as (Ce & P & _). intros c' E' W'.
    eapply (Fz _ _ _ _ _ _ _ _ _ Fn); eauto. congruence.
  - cbn. apply (Y c Rn W).
  - cbn. apply (Y c Rn W).
  - cbn in *. apply (Y c Rn W').
  - rewrite Rn in R. pose proof R as (A & B & C & D & G & Wd). destruct (D p Sv) as (P & _). destruct (G _ Pv) as (Ce & _). cbn. exists p. split; auto.
    destruct F as (x & Fx & _). apply (written_record _ _ _ _ _ _ Fx); auto.
  - intros c' E' W'. destruct (Y c' E' W') as (p & _ & Fl). now apply no_file in Fl.
  - intros c' E' W'. destruct (Y c' E' W') as (p & _ & Fl). now apply no_file in Fl.
  - intros c' E' W'. destruct (Y c' E' W') as (p & _ & Fl). now apply no_file in Fl.
Qed.

(** C67, after a restart: as long as no record is forced in under a running client, the
    next start finds exactly the server, the certificate and the identity the client
    was using in its main window. *)
Theorem C67_restart sha256 sign verify_sig l s l' s' c : sizes sha256 sign ->
  steps sha256 sign verify_sig start l s -> Forall event_ok l -> run s = None ->
  steps sha256 sign verify_sig s l' s' -> Forall event_ok l' -> Forall unforced l' ->
  run s' = Some c -> c_win c = Main -> forall fresh, load (file s') fresh = Some (rested c).
Proof.
  intros Z S F R0 S' F' NI R W fresh.
  assert (V : inv false s) by (destruct Z; eapply steps_inv; eauto; [discriminate|apply start_inv]).
  assert (Y : in_sync s) by (intros x; rewrite R0; discriminate).
  assert (Y' : in_sync s').
  { clear S F R0 R W. induction S' as [|s e s' l' s'' S T IH]; auto. inversion F'; subst. inversion NI; subst. apply IH; auto.
    - destruct Z. eapply step_inv; eauto. discriminate.
    - eapply sync_step; eauto. }
  destruct (Y' c R W) as (p & A & B). rewrite (load_filed _ _ _ _ _ fresh B). unfold rested. now rewrite A.
Qed.
Print Assumptions C67_restart.

(** * Nothing else changes it *)

(** Neither forced imports nor dying between the two renames of /acceptnewcert. *)
Definition careful (e : event) : Prop := match e with Import _ _ _ _ force _ _ => force = false | AcceptCert (Died None) => False | _ => True end.

Definition kept (addr : bytes) (p : PublicIdentity) (cert : bytes) (me : FullIdentity) (h0 : list obs) (s : state) : Prop :=
  exists cert' h, hist s = h ++ h0 /\ filed (file s) (Some (addr, p, cert', Some me)) /\
    (forall c, run s = Some c -> c_addr c = addr /\ c_server c = Some p /\ c_cert c = cert' /\ c_me c = me /\ c_win c = Main) /\
    (cert' = cert \/ In (Pinned cert') h).

Lemma kept_step sha256 sign verify_sig addr p cert me h0 s e s' : step sha256 sign verify_sig s e s' -> careful e -> inv false s ->
  kept addr p cert me h0 s -> kept addr p cert me h0 s'.
Proof.
  intros S NI (R & F & _) (cert' & h' & E & Fl & Rn' & Pc).
  assert (G : forall o, In (Pinned cert') (o :: h') \/ cert' = cert).
  { intros o. destruct Pc; [auto|left; now right]. }
  destruct S as [fresh c Rn L|fresh Rn L| |name nick addr' token cert0 pid o c Rn W|name nick addr' token cert0 pid o c Rn W N1 N2 N3 Sv
    |name nick addr' token cert0 pid o c p0 r f' h Rn W N1 N2 N3 Sv Fn|o c host cert0 pid token r f' h Rn W Fn|c host cert0 pid token Rn W
    |cert0 c p0 Rn W On Sv Ec|cert0 c Rn W On Ec|cert0 b c Rn W On Ec|c Rn|o c Rn W X|c p0 cert0 f' Rn W On Pv Sv Wr|c p0 cert0 Rn W On Pv Sv Wr
    |c p0 cert0 f' Rn W On Pv Sv Wr|addr' pid cert0 dir yes o X|addr' pid cert0 dir o X|addr' pid cert0 dir f' X Wr|addr' pid cert0 dir f' X Wr
    |addr' pid cert0 dir yes f' Wr|addr' pid cert0 dir yes f' Wr]; cbn [careful] in NI; try discriminate;
    try (now apply no_file in Fl);
    try (destruct (Rn' c Rn) as (Q1 & Q2 & Q3 & Q4 & Q5); congruence);
    try (exists cert', h'; now auto).
  - exists cert', h'. cbn. split; auto. split; auto. split; auto. intros c' E'. injection E' as <-. rewrite (load_filed _ _ _ _ _ fresh Fl) in L. injection L as <-. cbn. auto.
  - exists cert', (Session cert0 (PublicIdentity_Key p0) :: h'). cbn. split; [now rewrite E|]. split; auto. split; [|destruct (G (Session cert0 (PublicIdentity_Key p0))); auto].
    intros c' E'. injection E' as <-. cbn. destruct (Rn' c Rn) as (Q1 & Q2 & Q3 & Q4 & Q5). auto.
  - exists cert', (Refused cert0 :: h'). cbn. split; [now rewrite E|]. split; auto. split; [|destruct (G (Refused cert0)); auto].
    intros c' E'. injection E' as <-. cbn. destruct (Rn' c Rn) as (Q1 & Q2 & Q3 & Q4 & Q5). auto.
  - exists cert', h'. cbn. split; auto. split; auto. split; auto. intros c' E'. injection E' as <-. cbn. apply (Rn' c Rn).
  - rewrite Rn in R. destruct R as (A & B & C & D & Gp & Wd). destruct (D _ Sv) as (P & _). destruct (Gp _ Pv) as (Ce & _). destruct (Rn' c Rn) as (Q1 & Q2 & Q3 & Q4 & Q5).
    exists cert0, (Pinned cert0 :: h'). cbn. split; [now rewrite E|]. split; [|split; auto].
    + assert (p0 = p) as -> by congruence. rewrite <- Q1, <- Q4. apply (written_record _ _ _ _ _ _ Fl); auto.
    + intros c' E'. injection E' as <-. cbn. auto.
  - rewrite Rn in R. destruct R as (A & B & C & D & Gp & Wd). destruct (D _ Sv) as (P & _). destruct (Gp _ Pv) as (Ce & _). destruct (Rn' c Rn) as (Q1 & Q2 & Q3 & Q4 & Q5).
    assert (p0 = p) as -> by congruence.
    destruct Wr as [->|[[X _]|[[_ ->]|(f & W' & ->)]]].
    + exists cert', (Pinned cert0 :: h'). cbn. split; [now rewrite E|]. split; auto. split; [discriminate|]. destruct (G (Pinned cert0)); auto.
    + rewrite X in Fl. destruct Fl as (z & Z & Y & _). cbn in Z. subst z. discriminate.
    + contradiction.
    + exists cert0, (Pinned cert0 :: h'). cbn. split; [now rewrite E|]. split; [|split; auto; discriminate].
      rewrite <- Q1, <- Q4. apply (written_record _ _ _ _ _ _ Fl); auto.
Qed.

(** C67, nothing else changes it: once a client has an account that is on its disk,
    then whatever the network shows, and over restarts, the address, the server's
    identity and the user's own stay the same in memory and on disk, and the
    certificate changes only to one accepted since with /acceptnewcert. *)
Theorem C67_kept sha256 sign verify_sig l s c p l' s' fresh0 : sizes sha256 sign ->
  steps sha256 sign verify_sig start l s -> Forall event_ok l ->
  run s = Some c -> c_win c = Main -> c_server c = Some p -> load (file s) fresh0 = Some (rested c) ->
  steps sha256 sign verify_sig s l' s' -> Forall event_ok l' -> Forall careful l' ->
  exists cert h, hist s' = h ++ hist s /\ (cert = c_cert c \/ In (Pinned cert) h) /\
    (forall fresh, load (file s') fresh = Some (mkClient (c_addr c) (Some p) cert None (c_me c) None Main)) /\
    (forall c', run s' = Some c' -> c_addr c' = c_addr c /\ c_server c' = Some p /\ c_cert c' = cert /\ c_me c' = c_me c /\ c_win c' = Main).
Proof.
  intros Z S F R W Sv L S' F' Ca.
  assert (V : inv false s) by (destruct Z; eapply steps_inv; eauto; [discriminate|apply start_inv]).
  assert (K : kept (c_addr c) p (c_cert c) (c_me c) (hist s) s).
  { exists (c_cert c), []. destruct V as (_ & (x & Fx & _) & _). destruct (filed_load _ _ _ _ Fx L eq_refl) as (q & A & B & _). cbn in A, B. split; auto. split; [congruence|]. split; auto.
    intros c' E. rewrite R in E. injection E as <-. auto. }
  assert (K' : kept (c_addr c) p (c_cert c) (c_me c) (hist s) s').
  { revert K. generalize (hist s). intros h0 K. clear S F R L. revert V K. induction S' as [|s e s' l' s'' S T IH]; intros V K; auto. inversion F'; subst. inversion Ca; subst. apply IH; auto.
    - destruct Z. eapply step_inv; eauto. discriminate.
    - eapply kept_step; eauto. }
  destruct K' as (cert & h & A & B & C & D). exists cert, h. split; auto. split; auto. split; auto. intros fresh. now apply load_filed.
Qed.
Print Assumptions C67_kept.

(** * What is not so *)

Definition entered (fresh : FullIdentity) (name nick : bytes) : Prop :=
  me_ok fresh /\ text_ok name /\ text_ok nick /\ name <> [] /\ nick <> [].
Definition place (addr cert : bytes) (p : PublicIdentity) : Prop := clean addr /\ addr <> [] /\ Forall is_byte cert /\ pid_ok p.
(** The record of [p] with another key. *)
Definition with_key (p : PublicIdentity) (k : bytes) : PublicIdentity :=
  mkPublicIdentity (PublicIdentity_Name p) (PublicIdentity_Nick p) (PublicIdentity_SigKey p) k (PublicIdentity_Identity p) (PublicIdentity_Digest p) (PublicIdentity_Signature p).

Ltac each_event := repeat (apply Forall_cons; [cbn [event_ok]; auto; tauto|]); apply Forall_nil.

Section Refuted.
Variable sha256 : bytes -> bytes.
Variable sign : bytes -> bytes -> bytes.
Variable verify_sig : bytes -> bytes -> bytes -> bool.

Lemma recalculate_again f name nick m : recalculate_digest sha256 sign verify_sig (rename f name nick) = Ok m ->
  recalculate_digest sha256 sign verify_sig (rename m name nick) = Ok m.
Proof.
  unfold recalculate_digest. cbn. destruct (verify _ _ _) eqn:V; [|discriminate]. intros E. injection E as <-. cbn. now rewrite V.
Qed.
Lemma record_written fl x addr p cert m : filed fl x -> clean addr -> pid_ok p -> Forall is_byte cert -> me_ok m ->
  exists f', written fl (server_record addr p cert m) f' /\ filed (Some f') (Some (addr, p, cert, Some m)).
Proof. intros F A P C M. destruct (written_record fl x addr p cert m F A P C M) as [(f' & W) Y]. eauto. Qed.

(** C67, the fingerprint: what the user compares does not say whose key it is: a record with the address,
    certificate and fingerprint of an honest server but another's key looks the same,
    and the account is then made on whatever certificate the connection shows. *)
Theorem C67_import_refuted p k addr cert x token fresh name nick me : sizes sha256 sign -> place addr cert p -> size_ok 1218 k -> Forall is_byte k -> Forall is_byte x -> entered fresh name nick ->
  recalculate_digest sha256 sign verify_sig (rename fresh name nick) = Ok me ->
  exists l s, steps sha256 sign verify_sig start l s /\ Forall event_ok l /\
    hist s = [Session x k; Created x (FullIdentity_Public me); Asked x token (FullIdentity_Public me);
              Agreed addr cert (with_key p k); Shown addr cert (PublicIdentity_Identity p)] /\
    forall fresh', load (file s) fresh' = Some (mkClient addr (Some (with_key p k)) x None me None Main).
Proof.
  intros [Z1 Z2] (A & NA & C & P) K1 K2 X (M & T1 & T2 & N1 & N2) R.
  assert (P' : pid_ok (with_key p k)).
  { destruct P as ((O1 & O2 & O3 & _ & O5) & B1 & B2 & B3 & _ & B5). unfold pid_ok, PublicIdentity_ok, with_key. cbn [PublicIdentity_Name PublicIdentity_Nick PublicIdentity_SigKey PublicIdentity_Key PublicIdentity_Identity PublicIdentity_Digest PublicIdentity_Signature]. tauto. }
  assert (Me : me_ok me) by (eapply recalculated; eauto; now apply renamed).
  destruct (written_imported None None addr (with_key p k) cert false filed_none A P' C) as [(f1 & W1) Y1]. pose proof (Y1 f1 W1) as F1. cbv iota in F1.
  destruct (record_written _ _ addr (with_key p k) x me F1 A P' X Me) as (f2 & W2 & F2).
  exists [Import addr (with_key p k) cert false false true (Done f1); Start fresh; Enter name nick addr token x (with_key p k) (Done f2)]. eexists. split; [|split; [|split]].
  - eapply Steps_cons; [apply S_imported; [reflexivity|exact W1]|].
    eapply Steps_cons; [eapply S_start; [reflexivity|]|].
    + destruct F1 as (z & Fz & Sz). cbn [file]. apply (load_says f1 z _ _ _ _ fresh Fz Sz).
    + eapply Steps_cons; [|apply Steps_nil]. eapply S_known; try reflexivity; auto. apply F_done; [exact R|exact W2].
  - each_event.
  - reflexivity.
  - intros fresh'. now apply load_filed.
Qed.

(** C67, unseen certificates: an account creation that breaks off after its reply leaves the client with a
    server, so that the next one, at any address, asks nothing: the token goes to a
    server whose certificate was never shown, and that certificate is kept. *)
Theorem C67_unseen_refuted p addr cert addr2 cert2 token token2 fresh name nick me : sizes sha256 sign -> place addr cert p -> clean addr2 -> addr2 <> [] -> Forall is_byte cert2 -> entered fresh name nick ->
  recalculate_digest sha256 sign verify_sig (rename fresh name nick) = Ok me ->
  exists l s, steps sha256 sign verify_sig start l s /\ Forall event_ok l /\
    hist s = [Session cert2 (PublicIdentity_Key p); Created cert2 (FullIdentity_Public me); Asked cert2 token2 (FullIdentity_Public me);
              Created cert (FullIdentity_Public me); Asked cert token (FullIdentity_Public me); Agreed addr cert p; Shown addr cert (PublicIdentity_Identity p)] /\
    forall fresh', load (file s) fresh' = Some (mkClient addr2 (Some p) cert2 None me None Main).
Proof.
  intros [Z1 Z2] (A & NA & C & P) A2 NA2 C2 (M & T1 & T2 & N1 & N2) R.
  assert (Me : me_ok me) by (eapply recalculated; eauto; now apply renamed).
  destruct (record_written _ _ addr2 p cert2 me filed_none A2 P C2 Me) as (f2 & W2 & F2).
  exists [Start fresh; Enter name nick addr token cert p NoReply; Yes NoSession; No; Enter name nick addr2 token2 cert2 p (Done f2)]. eexists. split; [|split; [|split]].
  - eapply Steps_cons; [eapply S_start; reflexivity|].
    eapply Steps_cons; [eapply S_identify; try reflexivity; auto|].
    eapply Steps_cons; [eapply S_yes; try reflexivity; apply F_nosession; exact R|].
    eapply Steps_cons; [eapply S_no; reflexivity|].
    eapply Steps_cons; [|apply Steps_nil]. eapply S_known; try reflexivity; auto. apply F_done; [|exact W2]. cbn. eapply recalculate_again; eauto.
  - each_event.
  - reflexivity.
  - intros fresh'. now apply load_filed.
Qed.

(** C67, stale certificates: a refused certificate is not forgotten when the right one comes back: accepting
    pins the one refused before the last good session. *)
Theorem C67_stale_refuted l s c p x : sizes sha256 sign -> steps sha256 sign verify_sig start l s -> Forall event_ok l ->
  run s = Some c -> c_win c = Main -> c_server c = Some p -> c_online c = None -> Forall is_byte x -> x <> c_cert c ->
  exists f s', steps sha256 sign verify_sig s [Online x true; Online (c_cert c) true; Drop; AcceptCert (Done f)] s' /\
    hist s' = Pinned x :: Session (c_cert c) (PublicIdentity_Key p) :: Refused x :: hist s /\
    run s' = Some (mkClient (c_addr c) (Some p) x None (c_me c) None Main) /\
    forall fresh, load (file s') fresh = Some (mkClient (c_addr c) (Some p) x None (c_me c) None Main).
Proof.
  intros [Z1 Z2] S F R W Sv On X NE. assert (V : inv false s) by (eapply steps_inv; eauto; [discriminate|apply start_inv]).
  destruct V as (Rc & (y & Fy & _) & _). rewrite R in Rc. destruct Rc as (A & B & C & D & _). destruct (D p Sv) as (P & _).
  destruct (record_written _ _ (c_addr c) p x (c_me c) Fy A P X C) as (f & Wf & Ff).
  exists f. eexists. split; [|split; [|split]].
  - eapply Steps_cons; [eapply S_changed; eauto|].
    eapply Steps_cons; [eapply S_online; try reflexivity; cbn; eauto|].
    eapply Steps_cons; [eapply S_drop; reflexivity|].
    eapply Steps_cons; [|apply Steps_nil]. eapply S_pinned; try reflexivity; cbn; eauto.
  - reflexivity.
  - cbn. now rewrite Sv.
  - intros fresh. now apply load_filed.
Qed.

(** C67, dying: dying in the middle of /acceptnewcert can leave no file, and the next start
    greets the user as a new one, with another identity. *)
Theorem C67_new_user_refuted s c p x fresh : run s = Some c -> c_win c = Main -> c_server c = Some p -> c_online c = None -> c_prov c = Some x -> file s <> None ->
  exists s', steps sha256 sign verify_sig s [AcceptCert (Died None); Start fresh] s' /\
    run s' = Some (mkClient [] None [] None fresh None Welcoming) /\ file s' = None.
Proof.
  intros R W Sv On Pv NF. eexists. split; [|split].
  - eapply Steps_cons; [eapply S_diedpin; eauto; right; right; left; auto|].
    eapply Steps_cons; [eapply S_start; reflexivity|apply Steps_nil].
  - reflexivity.
  - reflexivity.
Qed.

(** C67, lost accounts: an account the server has created is lost if what follows fails and the program
    ends: nothing of the identity is on disk. *)
Theorem C67_orphan_refuted p addr cert (token : bytes) fresh fresh2 name nick me : place addr cert p -> entered fresh name nick -> me_ok fresh2 ->
  recalculate_digest sha256 sign verify_sig (rename fresh name nick) = Ok me ->
  exists l s, steps sha256 sign verify_sig start l s /\ Forall event_ok l /\ In (Created cert (FullIdentity_Public me)) (hist s) /\
    file s = None /\ run s = Some (mkClient [] None [] None fresh2 None Welcoming).
Proof.
  intros (A & NA & C & P) (M & T1 & T2 & N1 & N2) M2 R.
  exists [Start fresh; Enter name nick addr token cert p NoReply; Yes NoSession; Quit; Start fresh2]. eexists. split; [|split; [|split; [|split]]].
  - eapply Steps_cons; [eapply S_start; reflexivity|].
    eapply Steps_cons; [eapply S_identify; try reflexivity; auto|].
    eapply Steps_cons; [eapply S_yes; try reflexivity; apply F_nosession; exact R|].
    eapply Steps_cons; [eapply S_quit; reflexivity|].
    eapply Steps_cons; [eapply S_start; reflexivity|apply Steps_nil].
  - each_event.
  - cbn. auto.
  - reflexivity.
  - reflexivity.
Qed.

Lemma wedged_stays l : forall s s', steps sha256 sign verify_sig s l s' -> run s = None -> file s = Some (render [([], [])]) ->
  Forall (fun e => match e with Import _ _ _ _ force _ _ => force = false | _ => True end) l -> run s' = None /\ file s' = Some (render [([], [])]).
Proof.
  induction l as [|e l IH]; intros s s' S R F N; inversion S; subst; auto. inversion N; subst. eapply IH; eauto.
  - destruct H2; cbn [run file]; auto; try congruence. exfalso. rewrite F in H0. rewrite (load_nothing _ [] fresh) in H0; [discriminate|apply render_fresh|repeat split].
  - destruct H2; cbn [run file]; auto; try congruence.
Qed.
(** C67, a stuck client: dying while the first record is saved can leave a file that the program refuses to
    start with, whatever is done afterwards except a forced import. *)
Theorem C67_wedged_refuted p addr cert (token : bytes) fresh name nick me : place addr cert p -> entered fresh name nick ->
  recalculate_digest sha256 sign verify_sig (rename fresh name nick) = Ok me ->
  exists l s, steps sha256 sign verify_sig start l s /\ Forall event_ok l /\ In (Created cert (FullIdentity_Public me)) (hist s) /\ run s = None /\
    forall l' s', steps sha256 sign verify_sig s l' s' -> Forall (fun e => match e with Import _ _ _ _ force _ _ => force = false | _ => True end) l' -> run s' = None /\ file s' = file s.
Proof.
  intros (A & NA & C & P) (M & T1 & T2 & N1 & N2) R.
  exists [Start fresh; Enter name nick addr token cert p NoReply; Yes (Died (Some (render [([], [])])))]. eexists. split; [|split; [|split; [|split]]].
  - eapply Steps_cons; [eapply S_start; reflexivity|].
    eapply Steps_cons; [eapply S_identify; try reflexivity; auto|].
    eapply Steps_cons; [eapply S_yes; try reflexivity; apply F_died; [exact R|right; left; auto]|apply Steps_nil].
  - each_event.
  - cbn. auto.
  - reflexivity.
  - intros l' s' S N. eapply wedged_stays; eauto.
Qed.
End Refuted.
Print Assumptions C67_import_refuted.
Print Assumptions C67_unseen_refuted.
Print Assumptions C67_stale_refuted.
Print Assumptions C67_new_user_refuted.
Print Assumptions C67_orphan_refuted.
Print Assumptions C67_wedged_refuted.

(** * Cases *)

Definition total (x : bytes) : N := fold_left N.add x 0 mod 256.
Definition t_hash (x : bytes) : bytes := repeat (total x) 32.
Definition t_sign (k x : bytes) : bytes := repeat ((total k + total x) mod 256) 64.
Definition t_verify (k x s : bytes) : bool := eqb s (repeat ((total k + total x) mod 256) 64).

Lemma bytes_repeat v n : is_byte v -> Forall is_byte (repeat v n).
Proof. intros B. apply Forall_forall. intros y H. apply repeat_spec in H. now subst. Qed.
Lemma size_repeat v n : size_ok (N.of_nat n) (repeat v n).
Proof. unfold size_ok. now rewrite repeat_length. Qed.
Lemma mod_byte x : is_byte (x mod 256).
Proof. unfold is_byte. apply N.mod_lt. lia. Qed.
Example toy_sizes : sizes t_hash t_sign.
Proof.
  split; intros.
  - split; [exact (size_repeat (total x) 32)|apply bytes_repeat, mod_byte].
  - split; [exact (size_repeat ((total k + total x) mod 256) 64)|apply bytes_repeat, mod_byte].
Qed.

Definition all_bytes (x : bytes) : bool := forallb (fun b => b <? 256) x.
Lemma all_bytes_spec x : all_bytes x = true -> Forall is_byte x.
Proof. intros H. apply Forall_forall. intros y I. unfold all_bytes in H. rewrite forallb_forall in H. apply H in I. apply N.ltb_lt in I. exact I. Qed.
Definition t_pid (name nick : bytes) (b : N) : PublicIdentity :=
  mkPublicIdentity name nick (repeat b 32) (repeat b 1218) (repeat (b + 1) 32) (repeat (b + 2) 32) (repeat (b + 3) 64).
Definition t_server := t_pid (bs "the server") (bs "server") 5.
Definition t_fresh := mkFullIdentity (t_pid [] [] 2) (repeat 1 64) (repeat 9 1600).
Definition t_fresh2 := mkFullIdentity (t_pid [] [] 4) (repeat 2 64) (repeat 9 1600).

Lemma text_ok_b x : (N.of_nat (length x) <? 256) && all_bytes x = true -> text_ok x.
Proof.
  intros H. apply andb_true_iff in H as [L B]. split; [|now apply all_bytes_spec]. apply N.ltb_lt in L. unfold str_ok. cbv zeta. split; [|now left]. assert (pad_len (N.of_nat (length x)) < 4) by (unfold pad_len; apply N.mod_lt; lia). unfold max_int32. lia.
Qed.
Lemma t_pid_ok name nick b : text_ok name -> text_ok nick -> b < 200 -> pid_ok (t_pid name nick b).
Proof.
  intros [N1 N2] [K1 K2] L. unfold pid_ok, PublicIdentity_ok, t_pid. cbn [PublicIdentity_Name PublicIdentity_Nick PublicIdentity_SigKey PublicIdentity_Key PublicIdentity_Identity PublicIdentity_Digest PublicIdentity_Signature].
  assert (B : forall v n, v < 256 -> Forall is_byte (repeat v n)) by (intros; now apply bytes_repeat).
  assert (S1 : forall v, size_ok 32 (repeat v 32)) by (intros; apply (size_repeat v 32)).
  assert (S2 : forall v, size_ok 64 (repeat v 64)) by (intros; apply (size_repeat v 64)).
  assert (S3 : forall v, size_ok 1218 (repeat v 1218)) by (intros; apply (size_repeat v 1218)).
  split; [|split; [auto|split; [auto|split; [|split; [|split; [|split]]]]]]; try (apply B; lia). split; [exact N1|]. split; [exact K1|]. split; [exact (S1 b)|]. split; [exact (S3 b)|]. split; [exact (S1 (b + 1))|]. split; [exact (S1 (b + 2))|exact (S2 (b + 3))].
Qed.

Definition t_cert := bs "certificate". Definition t_cert2 := bs "another certificate". Definition t_addr := bs "example.org:12345".
Lemma t_text x : (N.of_nat (length x) <? 256) && all_bytes x = true -> text_ok x.
Proof. exact (text_ok_b x). Qed.
Lemma t_place : place t_addr t_cert t_server.
Proof.
  split; [apply clean_visible; unfold t_addr; cbn; repeat (apply Forall_cons; [lia|]); apply Forall_nil|]. split; [discriminate|].
  split; [apply all_bytes_spec; reflexivity|]. apply t_pid_ok; [apply t_text; reflexivity|apply t_text; reflexivity|lia].
Qed.
Lemma t_full_ok b c : b < 200 -> c < 200 -> me_ok (mkFullIdentity (t_pid [] [] b) (repeat c 64) (repeat 9 1600)).
Proof.
  intros B C. split; [apply t_pid_ok; auto; apply t_text; reflexivity|]. split; [apply (size_repeat c 64)|]. split; [apply (size_repeat 9 1600)|].
  split; apply bytes_repeat; unfold is_byte; lia.
Qed.
Lemma t_entered : entered t_fresh (bs "Alice") (bs "alice").
Proof.
  split; [apply t_full_ok; lia|]. split; [apply t_text; reflexivity|]. split; [apply t_text; reflexivity|]. split; discriminate.
Qed.
Lemma t_recalculated : exists me, recalculate_digest t_hash t_sign t_verify (rename t_fresh (bs "Alice") (bs "alice")) = Ok me.
Proof. eexists. vm_compute. reflexivity. Qed.

Lemma t_cert_ne : t_cert2 <> t_cert.
Proof. discriminate. Qed.
Lemma t_fresh2_ok : me_ok t_fresh2.
Proof. exact (t_full_ok 4 2 eq_refl eq_refl). Qed.
Lemma honest_run sha256 sign verify_sig p addr cert cert2 token fresh fresh2 name nick me : sizes sha256 sign -> place addr cert p -> Forall is_byte cert2 -> cert2 <> cert -> entered fresh name nick -> me_ok fresh2 ->
  recalculate_digest sha256 sign verify_sig (rename fresh name nick) = Ok me -> exists f1 f2 s s',
  steps sha256 sign verify_sig start
    [Start fresh; Enter name nick addr token cert p NoReply; Yes (Done f1)] s /\
  steps sha256 sign verify_sig s
    [Quit; Start fresh2; Online cert true; Drop; Online cert2 true; AcceptCert (Done f2); Online cert2 true] s' /\
  Forall event_ok [Start fresh; Enter name nick addr token cert p NoReply; Yes (Done f1)] /\
  Forall plain [Start fresh; Enter name nick addr token cert p NoReply; Yes (Done f1)] /\
  Forall event_ok [Quit; Start fresh2; Online cert true; Drop; Online cert2 true; AcceptCert (Done f2); Online cert2 true] /\
  Forall careful [Quit; Start fresh2; Online cert true; Drop; Online cert2 true; AcceptCert (Done f2); Online cert2 true] /\
  run s = Some (mkClient addr (Some p) cert None me (Some (cert, PublicIdentity_Key p)) Main) /\
  load (file s) fresh2 = Some (mkClient addr (Some p) cert None me None Main) /\
  run s' = Some (mkClient addr (Some p) cert2 None me (Some (cert2, PublicIdentity_Key p)) Main) /\
  load (file s') fresh2 = Some (mkClient addr (Some p) cert2 None me None Main) /\
  hist s' = [Session cert2 (PublicIdentity_Key p); Pinned cert2; Refused cert2; Session cert (PublicIdentity_Key p); Session cert (PublicIdentity_Key p);
             Created cert (FullIdentity_Public me); Asked cert token (FullIdentity_Public me);
             Agreed addr cert p; Shown addr cert (PublicIdentity_Identity p)].
Proof.
  intros [Z1 Z2] (A & NA & C & P) C2 NE (M & T1 & T2 & N1 & N2) M2 R.
  pose proof (recalculated sha256 sign verify_sig Z1 Z2 _ _ R (renamed _ _ _ M T1 T2)) as Me.
  destruct (record_written _ _ addr p cert me filed_none A P C Me) as (f1 & W1 & F1).
  destruct (record_written _ _ addr p cert2 me F1 A P C2 Me) as (f2 & W2 & F2).
  exists f1, f2. eexists. eexists. split; [|split].
  - eapply Steps_cons; [eapply S_start; reflexivity|].
    eapply Steps_cons; [eapply S_identify; try reflexivity; auto|].
    eapply Steps_cons; [eapply S_yes; try reflexivity; apply F_done; [exact R|exact W1]|apply Steps_nil].
  - eapply Steps_cons; [apply S_quit|].
    eapply Steps_cons; [eapply S_start; [reflexivity|apply (load_filed _ _ _ _ _ fresh2 F1)]|].
    eapply Steps_cons; [eapply S_online; reflexivity|].
    eapply Steps_cons; [eapply S_drop; reflexivity|].
    eapply Steps_cons; [eapply S_changed; try reflexivity; exact NE|].
    eapply Steps_cons; [eapply S_pinned; try reflexivity; exact W2|].
    eapply Steps_cons; [eapply S_online; reflexivity|apply Steps_nil].
  - split; [each_event|]. split; [repeat (apply Forall_cons; [exact I|]); apply Forall_nil|]. split; [each_event|]. split; [repeat (apply Forall_cons; [exact I|]); apply Forall_nil|].
    split; [reflexivity|]. split; [apply (load_filed _ _ _ _ _ fresh2 F1)|]. split; [reflexivity|]. split; [apply (load_filed _ _ _ _ _ fresh2 F2)|]. reflexivity.
Qed.
(** An account is made, the program restarted, the certificate changes and is
    accepted: all hypotheses of the four theorems hold, and they have something to
    talk about. *)
Example honest_case : exists me f1 f2 s s',
  steps t_hash t_sign t_verify start
    [Start t_fresh; Enter (bs "Alice") (bs "alice") t_addr (bs "token") t_cert t_server NoReply; Yes (Done f1)] s /\
  steps t_hash t_sign t_verify s
    [Quit; Start t_fresh2; Online t_cert true; Drop; Online t_cert2 true; AcceptCert (Done f2); Online t_cert2 true] s' /\
  Forall event_ok [Start t_fresh; Enter (bs "Alice") (bs "alice") t_addr (bs "token") t_cert t_server NoReply; Yes (Done f1)] /\
  Forall plain [Start t_fresh; Enter (bs "Alice") (bs "alice") t_addr (bs "token") t_cert t_server NoReply; Yes (Done f1)] /\
  Forall event_ok [Quit; Start t_fresh2; Online t_cert true; Drop; Online t_cert2 true; AcceptCert (Done f2); Online t_cert2 true] /\
  Forall careful [Quit; Start t_fresh2; Online t_cert true; Drop; Online t_cert2 true; AcceptCert (Done f2); Online t_cert2 true] /\
  run s = Some (mkClient t_addr (Some t_server) t_cert None me (Some (t_cert, repeat 5 1218)) Main) /\
  load (file s) t_fresh2 = Some (mkClient t_addr (Some t_server) t_cert None me None Main) /\
  run s' = Some (mkClient t_addr (Some t_server) t_cert2 None me (Some (t_cert2, repeat 5 1218)) Main) /\
  load (file s') t_fresh2 = Some (mkClient t_addr (Some t_server) t_cert2 None me None Main) /\
  hist s' = [Session t_cert2 (repeat 5 1218); Pinned t_cert2; Refused t_cert2; Session t_cert (repeat 5 1218); Session t_cert (repeat 5 1218);
             Created t_cert (FullIdentity_Public me); Asked t_cert (bs "token") (FullIdentity_Public me);
             Agreed t_addr t_cert t_server; Shown t_addr t_cert (repeat 6 32)].
Proof.
  destruct t_recalculated as (me & R). exists me.
  exact (honest_run t_hash t_sign t_verify t_server t_addr t_cert t_cert2 (bs "token") t_fresh t_fresh2 (bs "Alice") (bs "alice") me
    toy_sizes t_place (all_bytes_spec t_cert2 eq_refl) t_cert_ne t_entered t_fresh2_ok R).
Qed.

(** The hypotheses of the refutations. *)
Example import_case : exists me l s, steps t_hash t_sign t_verify start l s /\
  hist s = [Session t_cert2 (repeat 66 1218); Created t_cert2 (FullIdentity_Public me); Asked t_cert2 (bs "token") (FullIdentity_Public me);
            Agreed t_addr t_cert (with_key t_server (repeat 66 1218)); Shown t_addr t_cert (repeat 6 32)].
Proof.
  destruct t_recalculated as (me & R). exists me.
  destruct (C67_import_refuted t_hash t_sign t_verify t_server (repeat 66 1218) t_addr t_cert t_cert2 (bs "token") t_fresh (bs "Alice") (bs "alice") me toy_sizes t_place) as (l & s & S & _ & H & _); auto.
  - apply (size_repeat 66 1218).
  - apply bytes_repeat. unfold is_byte. lia.
  - apply all_bytes_spec. reflexivity.
  - apply t_entered.
  - exists l, s. auto.
Qed.
Example unseen_case : exists me l s, steps t_hash t_sign t_verify start l s /\ In (Asked t_cert2 (bs "token 2") (FullIdentity_Public me)) (hist s) /\
  forall host fp, ~ In (Shown host t_cert2 fp) (hist s).
Proof.
  destruct t_recalculated as (me & R). exists me. pose proof t_place as (A & NA & _).
  destruct (C67_unseen_refuted t_hash t_sign t_verify t_server t_addr t_cert t_addr t_cert2 (bs "token") (bs "token 2") t_fresh (bs "Alice") (bs "alice") me toy_sizes t_place A NA) as (l & s & S & _ & H & _); auto.
  - apply all_bytes_spec. reflexivity.
  - apply t_entered.
  - exists l, s. rewrite H. split; auto. split; [cbn; auto|]. intros host fp I. repeat (destruct I as [I|I]; [discriminate|]). exact I.
Qed.
(** A client that has just refused a certificate, as [C67_new_user_refuted] and, before
    that, [C67_stale_refuted] want it. *)
Lemma offline_run sha256 sign verify_sig p addr cert (token : bytes) fresh name nick me : sizes sha256 sign -> place addr cert p -> entered fresh name nick ->
  recalculate_digest sha256 sign verify_sig (rename fresh name nick) = Ok me -> exists l s, steps sha256 sign verify_sig start l s /\ Forall event_ok l /\
  run s = Some (mkClient addr (Some p) cert None me None Main) /\ file s <> None.
Proof.
  intros [Z1 Z2] (A & NA & C & P) (M & T1 & T2 & N1 & N2) R.
  pose proof (recalculated sha256 sign verify_sig Z1 Z2 _ _ R (renamed _ _ _ M T1 T2)) as Me.
  destruct (record_written _ _ addr p cert me filed_none A P C Me) as (f1 & W1 & F1).
  exists [Start fresh; Enter name nick addr token cert p NoReply; Yes (Done f1); Drop]. eexists. split; [|split; [|split]].
  - eapply Steps_cons; [eapply S_start; reflexivity|].
    eapply Steps_cons; [eapply S_identify; try reflexivity; auto|].
    eapply Steps_cons; [eapply S_yes; try reflexivity; apply F_done; [exact R|exact W1]|].
    eapply Steps_cons; [eapply S_drop; reflexivity|apply Steps_nil].
  - each_event.
  - reflexivity.
  - discriminate.
Qed.
Lemma t_offline : exists me l s, steps t_hash t_sign t_verify start l s /\ Forall event_ok l /\
  run s = Some (mkClient t_addr (Some t_server) t_cert None me None Main) /\ file s <> None.
Proof.
  destruct t_recalculated as (me & R). exists me.
  exact (offline_run t_hash t_sign t_verify t_server t_addr t_cert (bs "token") t_fresh (bs "Alice") (bs "alice") me toy_sizes t_place t_entered R).
Qed.
Example stale_case : exists me s f s', run s = Some (mkClient t_addr (Some t_server) t_cert None me None Main) /\
  steps t_hash t_sign t_verify s [Online t_cert2 true; Online t_cert true; Drop; AcceptCert (Done f)] s' /\
  run s' = Some (mkClient t_addr (Some t_server) t_cert2 None me None Main) /\
  hist s' = Pinned t_cert2 :: Session t_cert (repeat 5 1218) :: Refused t_cert2 :: hist s.
Proof.
  destruct t_offline as (me & l & s & S & E & R & _).
  destruct (C67_stale_refuted t_hash t_sign t_verify l s _ t_server t_cert2 toy_sizes S E R) as (f & s' & S' & H & R' & _); auto.
  - apply all_bytes_spec. reflexivity.
  - discriminate.
  - exists me, s, f, s'. auto.
Qed.
Example new_user_case : exists me s1 s2 s3, steps t_hash t_sign t_verify s1 [Online t_cert2 true] s2 /\
  run s1 = Some (mkClient t_addr (Some t_server) t_cert None me None Main) /\
  steps t_hash t_sign t_verify s2 [AcceptCert (Died None); Start t_fresh2] s3 /\
  run s3 = Some (mkClient [] None [] None t_fresh2 None Welcoming).
Proof.
  destruct t_offline as (me & l & s & S & E & R & N).
  pose (s2 := mkState (Some (mkClient t_addr (Some t_server) t_cert (Some t_cert2) me None Main)) (file s) (Refused t_cert2 :: hist s)).
  destruct (C67_new_user_refuted t_hash t_sign t_verify s2 _ t_server t_cert2 t_fresh2 eq_refl eq_refl eq_refl eq_refl eq_refl N) as (s3 & S3 & R3 & _).
  exists me, s, s2, s3. split; [|auto]. eapply Steps_cons; [|apply Steps_nil].
  apply (S_changed t_hash t_sign t_verify s t_cert2 true _ R); [reflexivity|reflexivity|discriminate].
Qed.
Example orphan_case : exists me l s, steps t_hash t_sign t_verify start l s /\ In (Created t_cert (FullIdentity_Public me)) (hist s) /\ file s = None.
Proof.
  destruct t_recalculated as (me & R). exists me.
  destruct (C67_orphan_refuted t_hash t_sign t_verify t_server t_addr t_cert (bs "token") t_fresh t_fresh2 (bs "Alice") (bs "alice") me t_place t_entered) as (l & s & S & _ & H & F & _); auto.
  - apply t_full_ok; lia.
  - exists l, s. auto.
Qed.
Example wedged_case : exists me l s, steps t_hash t_sign t_verify start l s /\ In (Created t_cert (FullIdentity_Public me)) (hist s) /\
  forall s', steps t_hash t_sign t_verify s [Start t_fresh; Start t_fresh2] s' -> run s' = None.
Proof.
  destruct t_recalculated as (me & R). exists me.
  destruct (C67_wedged_refuted t_hash t_sign t_verify t_server t_addr t_cert (bs "token") t_fresh (bs "Alice") (bs "alice") me t_place t_entered R) as (l & s & S & _ & H & _ & F).
  exists l, s. split; auto. split; auto. intros s' S'. apply (F _ _ S'). repeat (apply Forall_cons; [exact I|]). apply Forall_nil.
Qed.
