(** C68: records of servers and clients carried by hand. *)
From Verif Require Import Base IniModel IniMemProofs IniFileProofs HexModel XdrModel XdrProofs RpcModel RpcProofs StrconvModel ServerDbModel ServerDbProofs
  IdentityModel AcctModel AcctProofs AcctProps WelcomeModel PinModel PinProofs PinProps ImportModel ImportProofs.
Local Open Scope N_scope.

(** [b] is the text [a] with line breaks added anywhere, as mail programs do. *)
Inductive folds : bytes -> bytes -> Prop :=
| Folds_nil : folds [] []
| Folds_char c a b : folds a b -> folds (c :: a) (c :: b)
| Folds_break c a b : c = 10 \/ c = 13 -> folds a b -> folds a (c :: b).

Lemma folds_refl a : folds a a.
Proof. induction a; constructor; auto. Qed.
Lemma folds_unwrapped a b : folds a b -> unwrapped b = unwrapped a.
Proof.
  induction 1 as [|c a b F IH|c a b H F IH]; auto; unfold unwrapped in *; cbn [filter].
  - now rewrite IH.
  - destruct H as [-> | ->]; exact IH.
Qed.
Lemma exported_unwrapped x text : Forall is_byte x -> folds (b64_encode x ++ [10]) text -> unwrapped text = b64_encode x.
Proof.
  intros B F. apply folds_unwrapped in F. rewrite F, unwrapped_app. rewrite visible_unwrapped by now apply b64_chars. apply app_nil_r.
Qed.

(** C68, a server: what zkexport prints is read by zkimport as the same record,
    however its lines are broken. *)
Theorem C68_server r text : server_ok r -> folds (export_server r) text -> read_blob text = Some (FromServer r).
Proof.
  intros O F. pose proof (server_bytes r O) as B. unfold read_blob. rewrite (exported_unwrapped _ _ B F), encode_prefix by auto. now rewrite whole_server.
Qed.
Print Assumptions C68_server.

(** C68, a client: a client with an account is exported with its public identity,
    and read as a client's record, not as a server's. *)
Theorem C68_client f fresh c : load (Some f) fresh = Some c -> c_win c = Main -> me_ok (c_me c) ->
  exists text, export_client f = Some text /\
    forall text', folds text text' -> read_blob text' = Some (FromClient (mkClientRecord (FullIdentity_Public (c_me c)))).
Proof.
  intros L W M. unfold load in L. unfold export_client. destruct (parse f) as [t|]; [|injection L as <-; discriminate].
  cbv zeta in L. destruct (parse_my_server (opened t false)) as [[[addr pid] cert]|]; [|discriminate].
  destruct (parse_my_identity (opened t false)) as [me|]; injection L as <-; [|discriminate]. cbn [c_me] in *.
  eexists. split; [reflexivity|]. intros text' F. destruct M as [P _]. set (p := FullIdentity_Public me) in *.
  pose proof (pid_bytes p P) as B. rewrite client_enc in F. cbn [ClientRecord_PublicIdentity] in F. unfold read_blob.
  rewrite (exported_unwrapped _ _ B F), encode_prefix by auto. rewrite client_no_server by auto.
  pose proof (long_client p [] P) as X. rewrite app_nil_r in X. now rewrite X.
Qed.
Print Assumptions C68_client.

(** C68, the next start: after the user has said yes to a record with a clean address,
    the client comes up asking for an account there, with the server's identity and
    certificate in place. *)
Theorem C68_start sha256 sign verify_sig r text : server_ok r -> clean (ServerRecord_IPandPort r) -> folds (export_server r) text ->
  let import o := Import (ServerRecord_IPandPort r) (ServerRecord_PublicIdentity r) (ServerRecord_Certificate r) (ServerRecord_Directory r) false true o in
  read_blob text = Some (FromServer r) /\ (exists f s, step sha256 sign verify_sig start (import (Done f)) s) /\
  forall f s fresh, step sha256 sign verify_sig start (import (Done f)) s ->
    load (file s) fresh = Some (mkClient (ServerRecord_IPandPort r) (Some (ServerRecord_PublicIdentity r)) (ServerRecord_Certificate r) None fresh None Welcoming).
Proof.
  intros O A F import. split; [now apply C68_server|]. destruct O as (P & [_ C] & _).
  destruct (written_imported None None (ServerRecord_IPandPort r) (ServerRecord_PublicIdentity r) (ServerRecord_Certificate r) (ServerRecord_Directory r) filed_none A P C) as [(f & W) V].
  split.
  - exists f. eexists. apply S_imported; [reflexivity|exact W].
  - clear f W. intros f s fresh S. subst import. cbv beta in S. inversion S; subst; [contradiction|]. cbn [file]. destruct (V f) as (sec & Fl & Sa); auto.
    exact (load_says f sec _ _ _ None fresh Fl Sa).
Qed.
Print Assumptions C68_start.

(** C68, cut short: whatever part of the text is left, no other server and no other
    client comes out. *)
Theorem C68_cut r t u text : server_ok r -> t ++ u = export_server r -> folds t text ->
  match read_blob text with
  | Some (FromServer r') => r' = r
  | Some (FromClient c) => ClientRecord_PublicIdentity c = ServerRecord_PublicIdentity r
  | None => True
  end.
Proof.
  intros O E F. pose proof (server_bytes r O) as B. unfold read_blob. rewrite (folds_unwrapped _ _ F).
  assert (X : exists u', unwrapped t ++ u' = b64_encode (enc ServerRecord_codec r)).
  { exists (unwrapped u). rewrite <- unwrapped_app, E. unfold export_server. rewrite unwrapped_app, visible_unwrapped by now apply b64_chars. apply app_nil_r. }
  destruct X as (u' & E'). destruct (cut_prefix _ _ _ _ (le_n _) B E') as (z & Z).
  destruct (list_eq_dec N.eq_dec z []) as [->|NE].
  - rewrite app_nil_r in Z. rewrite <- Z, whole_server by auto. reflexivity.
  - rewrite (cut_server r _ _ O Z NE). pose proof (server_split r) as S. rewrite Z in S. set (p := ServerRecord_PublicIdentity r) in *.
    pose proof (proj1 O) as P. fold p in P. apply app_eq_app in S as (l & [[S1 S2]|[S1 S2]]).
    + rewrite S1, long_client by auto. reflexivity.
    + destruct l as [|c l].
      * rewrite app_nil_r in S1. rewrite <- S1. pose proof (long_client p [] P) as Y. rewrite app_nil_r in Y. rewrite Y. reflexivity.
      * rewrite (cut_client p _ _ P S1); [exact Logic.I|discriminate].
Qed.
Print Assumptions C68_cut.

Theorem C68_cut_client p t u text : pid_ok p -> t ++ u = b64_encode (enc ClientRecord_codec (mkClientRecord p)) ++ [10] -> folds t text ->
  match read_blob text with
  | Some (FromServer _) => False
  | Some (FromClient c) => c = mkClientRecord p
  | None => True
  end.
Proof.
  intros P E F. rewrite client_enc in E. cbn [ClientRecord_PublicIdentity] in E. pose proof (pid_bytes p P) as B. unfold read_blob. rewrite (folds_unwrapped _ _ F).
  assert (X : exists u', unwrapped t ++ u' = b64_encode (enc PublicIdentity_codec p)).
  { exists (unwrapped u). rewrite <- unwrapped_app, E. rewrite unwrapped_app, visible_unwrapped by now apply b64_chars. apply app_nil_r. }
  destruct X as (u' & E'). destruct (cut_prefix _ _ _ _ (le_n _) B E') as (z & Z). rewrite (client_no_server_cut p _ z P Z).
  destruct (list_eq_dec N.eq_dec z []) as [->|NE].
  - rewrite app_nil_r in Z. rewrite <- Z. pose proof (long_client p [] P) as Y. rewrite app_nil_r in Y. now rewrite Y.
  - now rewrite (cut_client p _ _ P Z NE).
Qed.
Print Assumptions C68_cut_client.

(** C68, but the text of every server can be cut so that it passes for a client's
    record, and zkimport goes on to look for an account. *)
Theorem C68_cut_refuted r : server_ok r ->
  exists t u, t ++ u = export_server r /\ read_blob t = Some (FromClient (mkClientRecord (ServerRecord_PublicIdentity r))).
Proof.
  intros O. pose proof (server_bytes r O) as B. pose proof (server_split r) as S. set (p := ServerRecord_PublicIdentity r) in *.
  set (w := enc (xpair xopaque (xpair xopaque xbool)) (ServerRecord_Certificate r, (ServerRecord_IPandPort r, ServerRecord_Directory r))) in *.
  assert (Lw : (12 <= length w)%nat) by apply rest_length. set (x := enc PublicIdentity_codec p) in *.
  set (k := Nat.div (length x + 2) 3).
  assert (K : (length x <= 3 * k <= length x + 2)%nat).
  { unfold k. pose proof (Nat.div_mod (length x + 2) 3 ltac:(lia)). pose proof (Nat.mod_upper_bound (length x + 2) 3 ltac:(lia)). lia. }
  exists (firstn (4 * k) (b64_encode (enc ServerRecord_codec r))), (skipn (4 * k) (b64_encode (enc ServerRecord_codec r)) ++ [10]). split.
  - unfold export_server. now rewrite app_assoc, firstn_skipn.
  - unfold read_blob. rewrite visible_unwrapped.
    2: { pose proof (b64_chars _ B) as C. rewrite <- (firstn_skipn (4 * k)) in C. now apply Forall_app in C. }
    rewrite encode_firstn; auto. 2: { rewrite S, app_length. lia. }
    rewrite (cut_server r _ (skipn (3 * k) (enc ServerRecord_codec r)) O).
    + rewrite S, firstn_app. rewrite firstn_all2 by lia. unfold x at 1. rewrite long_client by apply O. reflexivity.
    + now rewrite firstn_skipn.
    + intros H. apply (f_equal (@length N)) in H. rewrite skipn_length, S, app_length in H. change (length (@nil N)) with 0%nat in H. clearbody x w k. lia.
Qed.
Print Assumptions C68_cut_refuted.

(** C68, a client's record at the server: it is taken only by force, only for an
    account there is already, and only if no listed account has the nick; then only
    that account's identity changes.  Otherwise nothing does. *)
Theorem C68_account os s force r : acct_run [] os s -> Forall op_wire os -> pid_wire (ClientRecord_PublicIdentity r) ->
  let pid := ClientRecord_PublicIdentity r in
  let n := hex_encode (PublicIdentity_Identity pid) in
  (exists ok s', import_client s force r ok s') /\
  forall ok s', import_client s force r ok s' ->
  (ok = true <-> force = true /\ mget s n <> None /\ forall m p, ~ lists s m (PublicIdentity_Nick pid) p) /\
  (ok = false -> s' = s) /\
  (forall m, m <> n -> mget s' m = mget s m) /\
  (ok = true -> exists a a', mget s n = Some a /\ mget s' n = Some a' /\ identity_of a' = Some pid /\ a_cache a' = a_cache a /\ (is_listed a' <-> is_listed a)).
Proof.
  intros R W P pid n. unfold import_client. fold pid n. unfold mhas. destruct (mget s n) as [a|] eqn:G.
  - destruct (C30_create os s pid force R W P) as [E X]. split; auto. intros ok s' C. destruct (X ok s' C) as (X1 & X2 & X3). fold n in X1, X2, X3. rewrite G in X1, X3.
    split; [|split; [|split]]; auto.
    + rewrite X1. split; [intros [H [H'| ->]]; [discriminate|split; auto; split; [discriminate|auto]]|intros (-> & _ & H); auto].
    + intros m NE. destruct ok; [now apply X3|now rewrite X2].
    + intros ->. destruct (X3 eq_refl) as (_ & a' & G' & I & K & L). exists a, a'. auto.
  - split; [exists false, s; auto|]. intros ok s' [-> ->]. split; [split; [discriminate|intros (_ & H & _); congruence]|]. split; auto. split; auto. discriminate.
Qed.
Print Assumptions C68_account.

(** C68, so importing never brings a new client to a server, not even by force. *)
Theorem C68_new_refuted s force r ok s' : mget s (hex_encode (PublicIdentity_Identity (ClientRecord_PublicIdentity r))) = None ->
  import_client s force r ok s' -> ok = false /\ s' = s.
Proof. unfold import_client, mhas. intros ->. auto. Qed.
Print Assumptions C68_new_refuted.

(** C68, while an account that is not listed yet gets any keys a record with its
    fingerprint has, whoever made it: nothing ties the fingerprint to the keys. *)
Theorem C68_rekey_refuted p p' : pid_wire p -> pid_wire p' -> PublicIdentity_Identity p' = PublicIdentity_Identity p ->
  exists s s' a, acct_run [] [OCreate p false] s /\ import_client s true (mkClientRecord p') true s' /\
    mget s' (hex_encode (PublicIdentity_Identity p)) = Some a /\ identity_of a = Some p'.
Proof.
  intros W W' E.
  destruct (C30_create [] [] p false (ARun_nil []) (Forall_nil _) W) as [(ok & s & C) X]. destruct (X ok s C) as (X1 & _ & X3).
  assert (ok = true) as ->. { apply X1. split; [|now left]. intros m q (a & G & _). discriminate. }
  destruct (X3 eq_refl) as (Xo & a & G & I & Ca & NL). cbn [mget] in NL.
  assert (R : acct_run [] [OCreate p false] s) by (eapply ARun_cons; [exact C|constructor]).
  assert (Wo : Forall op_wire [OCreate p false]) by (constructor; [exact W|constructor]).
  destruct (C68_account [OCreate p false] s true (mkClientRecord p') R Wo W') as [(ok' & s' & C') Y].
  cbn [ClientRecord_PublicIdentity] in Y. rewrite E in Y. destruct (Y ok' s' C') as (Y1 & _ & _ & Y4).
  assert (ok' = true) as ->.
  { apply Y1. split; auto. split; [congruence|]. intros m q (b & Gb & Lb & _). destruct (EqB_dec m (hex_encode (PublicIdentity_Identity p))) as [->|NE].
    - rewrite G in Gb. injection Gb as <-. tauto.
    - rewrite (Xo m NE) in Gb. discriminate. }
  destruct (Y4 eq_refl) as (b & b' & Gb & Gb' & Ib & _). exists s, s', b'. auto.
Qed.
Print Assumptions C68_rekey_refuted.

(** C68, and a record with a line break in its address puts more than a server into
    the client's file: the next start finds an account with an identity and private
    keys the record's author chose, and the user is not asked for a name. *)
Theorem C68_injected_refuted sha256 sign verify_sig host p cert d m :
  let addr := host ++ [10] ++ bs "myidentity = " ++ b64_encode (enc FullIdentity_codec m) in
  let r := mkServerRecord p cert addr d in
  server_ok r -> clean host -> me_ok m ->
  read_blob (export_server r) = Some (FromServer r) /\ (exists f s, step sha256 sign verify_sig start (Import addr p cert d false true (Done f)) s) /\
  forall f s fresh, step sha256 sign verify_sig start (Import addr p cert d false true (Done f)) s ->
    load (file s) fresh = Some (mkClient host (Some p) cert None m None Main).
Proof.
  intros addr r O H M. assert (Ea : addr = injected host m) by reflexivity. split; [apply C68_server; auto; apply folds_refl|].
  destruct O as (P & [_ C] & _). cbn in P, C. rewrite Ea. clearbody addr. clear Ea r. split.
  - destruct (written_injected_some (injected host m) p cert d) as (f & W). exists f. eexists. apply S_imported; [reflexivity|exact W].
  - intros f s fresh S. inversion S; subst; [contradiction|]. cbn [file].
    destruct (written_injected host p cert d m f H P C M) as (sec & Fl & Sa); auto. exact (load_says f sec _ _ _ (Some m) fresh Fl Sa).
Qed.
Print Assumptions C68_injected_refuted.

(** * Cases *)

Definition t_record := mkServerRecord t_server t_cert t_addr true.
Lemma t_record_ok : server_ok t_record.
Proof.
  split; [exact (proj2 (proj2 (proj2 t_place)))|]. split; apply t_text; reflexivity.
Qed.
(** Folded after five characters, with both kinds of line breaks, and read back. *)
Example read_folded :
  let text := export_server t_record in
  let text' := firstn 5 text ++ [13; 10] ++ skipn 5 text in
  folds text text' /\ read_blob text' = Some (FromServer t_record) /\ text' <> text.
Proof.
  intros text text'. assert (F : folds text text').
  { unfold text'. rewrite <- (firstn_skipn 5 text) at 1. generalize (skipn 5 text). induction (firstn 5 text) as [|c a IH]; intros b.
    - apply Folds_break; [now right|]. apply Folds_break; [now left|]. apply folds_refl.
    - cbn. constructor. apply IH. }
  split; auto. split; [exact (C68_server t_record text' t_record_ok F)|]. intros E. apply (f_equal (@length N)) in E.
  unfold text' in E. rewrite !app_length, <- (firstn_skipn 5 text) in E. rewrite app_length in E. rewrite firstn_skipn in E. cbn [length] in E. lia.
Qed.
(** The user says yes and starts the client. *)
Example imported_starts f s : step t_hash t_sign t_verify start (Import t_addr t_server t_cert true false true (Done f)) s ->
  load (file s) t_fresh = Some (mkClient t_addr (Some t_server) t_cert None t_fresh None Welcoming).
Proof.
  exact (proj2 (proj2 (C68_start t_hash t_sign t_verify t_record _ t_record_ok (proj1 t_place) (folds_refl _))) f s t_fresh).
Qed.
(** The same server, its text cut. *)
Example cut_read : exists t u, t ++ u = export_server t_record /\ read_blob t = Some (FromClient (mkClientRecord t_server)).
Proof. exact (C68_cut_refuted t_record t_record_ok). Qed.
Example cut_nothing : read_blob (firstn 1000 (export_server t_record)) = None.
Proof. vm_compute. reflexivity. Qed.

(** alice's keys at the server, replaced by ones with the same fingerprint and
    another name. *)
Example rekeyed : exists s s' a, acct_run [] [OCreate (somebody (bs "alice") 7) false] s /\
  import_client s true (mkClientRecord (somebody (bs "mallory") 7)) true s' /\
  mget s' (hex_encode (repeat 7 32)) = Some a /\ identity_of a = Some (somebody (bs "mallory") 7).
Proof.
  apply (C68_rekey_refuted (somebody (bs "alice") 7) (somebody (bs "mallory") 7)); [exact alice_wire| |reflexivity].
  apply somebody_wire; [lia| |cbn; lia]. cbn. repeat (apply Forall_cons; [unfold is_byte; lia|]). constructor.
Qed.
(** bob is not known there. *)
Example newcomer s : acct_run [] [OCreate (somebody (bs "alice") 7) false] s -> forall force ok s', import_client s force (mkClientRecord (somebody (bs "bob") 5)) ok s' -> ok = false /\ s' = s.
Proof.
  intros R force ok s'. apply C68_new_refuted. cbn [ClientRecord_PublicIdentity].
  destruct (C30_create [] [] (somebody (bs "alice") 7) false (ARun_nil []) (Forall_nil _) alice_wire) as [_ X].
  inversion R as [|? ? ok1 s1 ? ? S1 R1]; subst. inversion R1; subst. destruct (X ok1 s S1) as (X1 & _ & X3).
  assert (ok1 = true) as ->. { apply X1. split; [|now left]. intros m q (a & G & _). discriminate. }
  destruct (X3 eq_refl) as (Xo & _). rewrite Xo; [reflexivity|discriminate].
Qed.

(** The record with an account in its address. *)
Definition t_injected := t_addr ++ [10] ++ bs "myidentity = " ++ b64_encode (enc FullIdentity_codec t_fresh).
Lemma t_injected_ok : text_ok t_injected.
Proof.
  assert (L : (N.of_nat (length t_injected) <? 65536) && all_bytes t_injected = true) by (vm_compute; reflexivity).
  apply andb_true_iff in L as [L B]. split; [|now apply all_bytes_spec]. apply N.ltb_lt in L. unfold str_ok. cbv zeta. split; [|now left].
  assert (pad_len (N.of_nat (length t_injected)) < 4) by (unfold pad_len; apply N.mod_lt; lia). unfold max_int32. lia.
Qed.
Example injected_starts f s : step t_hash t_sign t_verify start (Import t_injected t_server t_cert true false true (Done f)) s ->
  load (file s) t_fresh2 = Some (mkClient t_addr (Some t_server) t_cert None t_fresh None Main).
Proof.
  assert (O : server_ok (mkServerRecord t_server t_cert t_injected true)) by (split; [exact (proj1 t_record_ok)|split; [exact (proj1 (proj2 t_record_ok))|exact t_injected_ok]]).
  exact (proj2 (proj2 (C68_injected_refuted t_hash t_sign t_verify t_addr t_server t_cert true t_fresh O (proj1 t_place) (proj1 t_entered))) f s t_fresh2).
Qed.
