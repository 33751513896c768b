(** C63: whose keys the conversation with a contact uses. *)
From Verif Require Import Base XdrModel XdrProofs RpcModel RpcProofs BlobModel IdentityModel AddrModel RatchetModel IdkxModel IdkxProofs.
Local Open Scope N_scope.

(** The cryptographic functions the client uses. *)
Record suite := mkSuite {
  s_hmac : bytes -> bytes -> bytes; s_sha : bytes -> bytes; s_x25519 : bytes -> bytes -> option bytes; s_base : bytes -> bytes;
  s_seal : bytes -> bytes -> bytes -> bytes; s_unseal : bytes -> bytes -> bytes -> option bytes;
  s_scrypt : bytes -> bytes -> bytes; s_encap : bytes -> bytes -> bytes * bytes; s_decap : bytes -> bytes -> option bytes;
  s_verify : bytes -> bytes -> bytes -> bool }.

Definition reaction s := react (s_hmac s) (s_sha s) (s_x25519 s) (s_base s) (s_seal s) (s_unseal s) (s_scrypt s) (s_encap s) (s_decap s) (s_verify s).
Definition until s := cut (s_hmac s) (s_sha s) (s_x25519 s) (s_base s) (s_seal s) (s_unseal s) (s_scrypt s) (s_encap s) (s_decap s) (s_verify s).
Definition after s := done (s_hmac s) (s_sha s) (s_x25519 s) (s_base s) (s_seal s) (s_unseal s) (s_scrypt s) (s_encap s) (s_decap s) (s_verify s).
Definition supplies s := carried (s_unseal s) (s_scrypt s) (s_decap s).

(** Opening a box made of bytes gives bytes. *)
Definition byte_box (s : suite) : Prop := forall k n b m, Forall is_byte b -> s_unseal s k n b = Some m -> Forall is_byte m.

(** A client without contacts, and everything reachable from it by events, each
    possibly cut short by a crash. *)
Inductive lived (s : suite) (me : FullIdentity) (dir : bool) : client -> Prop :=
| LStart : lived s me dir (mkClient me dir [] [] [] [])
| LEvent c e ev n : lived s me dir c -> proper ev -> reorders e -> lived s me dir (until s c e ev n).

Lemma lived_inv s me dir c : byte_box s -> lived s me dir c -> inv c.
Proof.
  intros B L. induction L as [|c e ev n L IH P R].
  - intros id. unfold secured, fget. cbn. split; [discriminate|intros []; congruence].
  - now apply cut_inv.
Qed.

(** * C63 *)

(** What is on file for a contact changes only by the user's deletion of the
    contact or, when there is neither a ratchet nor a half ratchet, to the record
    that the event itself supplies. *)
Theorem C63_change s me dir c e ev n id : byte_box s -> lived s me dir c -> proper ev -> reorders e ->
  stored (until s c e ev n) id <> stored c id ->
  ev = Delete id \/
  ~ secured c id /\ exists q, supplies s c ev q /\ ident q = id /\ stored (until s c e ev n) id = Some q.
Proof.
  intros B L P R N. pose proof (lived_inv _ _ _ _ B L) as I.
  destruct (cut_id (s_hmac s) (s_sha s) (s_x25519 s) (s_base s) (s_seal s) (s_unseal s) (s_scrypt s) (s_encap s) (s_decap s) (s_verify s) B c e ev n id I P R) as [E|H]; [contradiction|exact H].
Qed.
Print Assumptions C63_change.

(** As long as there is a ratchet or half ratchet at the start of every event, the
    contact's record stays the same. *)
Inductive watched (s : suite) (id : bytes) : client -> client -> Prop :=
| WStop c : watched s id c c
| WStep c e ev n c' : secured c id -> ev <> Delete id -> proper ev -> reorders e ->
    watched s id (until s c e ev n) c' -> watched s id c c'.

Theorem C63_frozen s me dir c c' id : byte_box s -> lived s me dir c -> watched s id c c' -> stored c' id = stored c id.
Proof.
  intros B L W. induction W as [|c e ev n c' S N P R W IH]; [reflexivity|].
  rewrite IH by (constructor; auto).
  pose proof (lived_inv _ _ _ _ B L) as I.
  destruct (cut_id (s_hmac s) (s_sha s) (s_x25519 s) (s_base s) (s_seal s) (s_unseal s) (s_scrypt s) (s_encap s) (s_decap s) (s_verify s) B c e ev n id I P R) as [E|[E|[E _]]]; [exact E|contradiction|contradiction].
Qed.
Print Assumptions C63_frozen.

(** The directory of an identity holds a record of that identity, whatever
    happened. *)
Theorem C63_named s me dir c id p : byte_box s -> lived s me dir c -> stored c id = Some p -> ident p = id.
Proof. intros B L S. pose proof (lived_inv _ _ _ _ B L) as I. now destruct (stored_inv _ _ _ I S) as (_ & _ & E). Qed.
Print Assumptions C63_named.

(** A push of one sender touches nothing of a contact with a ratchet other than
    that sender. *)
Theorem C63_isolation s me dir c e clear from payload n id : byte_box s -> lived s me dir c ->
  Forall is_byte payload -> reorders e -> from <> id -> secured c id ->
  fget (until s c e (Push clear from payload) n) id = fget c id.
Proof.
  intros B L P R N S. pose proof (lived_inv _ _ _ _ B L) as Iv. unfold until, cut. rewrite fget_ops.
  pose proof (react_shape (s_hmac s) (s_sha s) (s_x25519 s) (s_base s) (s_seal s) (s_unseal s) (s_scrypt s) (s_encap s) (s_decap s) (s_verify s) B c e (Push clear from payload) P R) as Sh.
  revert Sh. generalize (fst (react (s_hmac s) (s_sha s) (s_x25519 s) (s_base s) (s_seal s) (s_unseal s) (s_scrypt s) (s_encap s) (s_decap s) (s_verify s) c e (Push clear from payload))).
  intros l Sh. destruct Sh as [l Q|p out k r C O X Nf|p r l f y C O X Xf Ne Ev Q|f y p r r' l Ev Lo F Q|f y p l Ev Lo Pc H|i l Ev H|i p r r' l Ev Lo Q|i Ev]; try discriminate.
  - apply quiet_effects. now apply quiet_firstn.
  - destruct clear; [contradiction|]. destruct (Nf from payload). reflexivity.
  - apply exists_secured in X; auto. assert (id <> ident p) by congruence.
    destruct n as [|[|n]]; cbn [firstn effects fold_left effect]; try reflexivity.
    + destruct (eqb_spec id (ident p)); [contradiction|reflexivity].
    + change (fold_left _ ?l ?f) with (effects l id f). rewrite quiet_effects by now apply quiet_firstn.
      destruct (eqb_spec id (ident p)); [contradiction|reflexivity].
  - injection Ev as _ Ef _; subst from. apply load_ratchet_some in Lo as [Lo _]. destruct (stored_inv _ _ _ Iv Lo) as (_ & _ & ->).
    destruct n as [|[|n]]; cbn [firstn effects fold_left effect]; try reflexivity;
      destruct (eqb_spec id f); try congruence. change (fold_left _ ?l ?f) with (effects l id f). now rewrite quiet_effects by now apply quiet_firstn.
  - injection Ev as _ Ef _; subst from. apply load_identity_some in Lo. destruct (stored_inv _ _ _ Iv Lo) as (_ & _ & E).
    destruct n as [|[|n]]; cbn [firstn effects fold_left effect]; try reflexivity;
      destruct (eqb_spec id f); try congruence. change (fold_left _ ?l ?f) with (effects l id f).
    destruct H as [Q|(out & k & r & ->)]; [now rewrite quiet_effects by now apply quiet_firstn|].
    unfold half_ops. rewrite E. destruct n as [|[|[|[|n]]]]; cbn [firstn]; rewrite ?firstn_nil; cbn [effects fold_left effect];
      destruct (eqb_spec id f); congruence.
  - destruct Ev as [[m Ev]|[m Ev]]; [discriminate|]. injection Ev as _ Ef _; subst from. apply load_ratchet_some in Lo as [Lo _].
    destruct (stored_inv _ _ _ Iv Lo) as (_ & _ & ->). rewrite firstn_app, effects_app, (quiet_effects (firstn n l)) by now apply quiet_firstn.
    destruct (n - length l)%nat as [|n']; cbn [firstn effects fold_left effect]; [reflexivity|].
    rewrite firstn_nil. cbn [fold_left]. destruct (eqb_spec id i); congruence.
Qed.
Print Assumptions C63_isolation.

(** A conversation ends only by the user's deletion or reset, or by a cleartext
    reset under the contact's name. *)
Theorem C63_ended s me dir c e ev n id : byte_box s -> lived s me dir c -> proper ev -> reorders e ->
  f_full (fget c id) <> None -> f_full (fget (until s c e ev n) id) = None ->
  ev = Delete id \/ ev = Reset id \/
  exists payload pc rest, ev = Push true id payload /\ dec ProxyCmd_codec 0 payload = Some (pc, rest) /\ ProxyCmd_Command pc = 1.
Proof.
  intros B L P R S. pose proof (lived_inv _ _ _ _ B L) as Iv. unfold until, cut. rewrite fget_ops.
  pose proof (react_shape (s_hmac s) (s_sha s) (s_x25519 s) (s_base s) (s_seal s) (s_unseal s) (s_scrypt s) (s_encap s) (s_decap s) (s_verify s) B c e ev P R) as Sh.
  revert Sh. generalize (fst (react (s_hmac s) (s_sha s) (s_x25519 s) (s_base s) (s_seal s) (s_unseal s) (s_scrypt s) (s_encap s) (s_decap s) (s_verify s) c e ev)).
  intros l Sh. destruct Sh as [l Q|p out k r C O X Nf|p r l f y C O X Xf Ne Ev Q|f y p r r' l Ev Lo F Q|f y p l Ev Lo Pc H|i l Ev H|i p r r' l Ev Lo Q|i Ev].
  - rewrite quiet_effects by now apply quiet_firstn. contradiction.
  - unfold half_ops. destruct n as [|[|[|[|n]]]]; cbn [firstn]; rewrite ?firstn_nil; cbn [effects fold_left effect];
      destruct (eqb id (ident p)); contradiction.
  - destruct n as [|[|n]]; cbn [firstn effects fold_left effect]; try contradiction.
    + destruct (eqb id (ident p)); contradiction.
    + change (fold_left _ ?l ?f) with (effects l id f). rewrite quiet_effects by now apply quiet_firstn.
      destruct (eqb id (ident p)); try contradiction. discriminate.
  - apply load_ratchet_some in Lo as [Lo _]. destruct (stored_inv _ _ _ Iv Lo) as (_ & _ & E). rewrite E.
    destruct n as [|[|n]]; cbn [firstn effects fold_left effect]; try contradiction.
    + destruct (eqb id f); try contradiction. discriminate.
    + change (fold_left _ ?l ?f) with (effects l id f). rewrite quiet_effects by now apply quiet_firstn.
      destruct (eqb id f); try contradiction. discriminate.
  - destruct (eqb_spec id f) as [->|Hne].
    + intros _. right. right. destruct Pc as (pc & rest & D & K). exists y, pc, rest. auto.
    + apply load_identity_some in Lo. destruct (stored_inv _ _ _ Iv Lo) as (_ & _ & E).
      destruct n as [|[|n]]; cbn [firstn effects fold_left effect]; try contradiction; destruct (eqb_spec id f); try congruence.
      change (fold_left _ ?l ?f) with (effects l id f).
      destruct H as [Q|(out & k & r & ->)]; [rewrite quiet_effects by (now apply quiet_firstn); contradiction|].
      unfold half_ops. rewrite E. destruct n as [|[|[|[|n]]]]; cbn [firstn]; rewrite ?firstn_nil; cbn [effects fold_left effect];
        destruct (eqb_spec id f); congruence.
  - destruct (eqb_spec id i) as [->|Hne]; [auto|].
    destruct H as [->|(to & x & ->)]; destruct n as [|[|[|n]]]; cbn [firstn]; rewrite ?firstn_nil; cbn [effects fold_left effect];
      destruct (eqb_spec id i); congruence.
  - rewrite firstn_app, effects_app, (quiet_effects (firstn n l)) by now apply quiet_firstn.
    destruct (n - length l)%nat as [|n']; cbn [firstn effects fold_left effect]; [contradiction|].
    rewrite firstn_nil. cbn [fold_left]. destruct (eqb id (ident p)); try contradiction. discriminate.
  - destruct (eqb_spec id i) as [->|Hne]; [auto|]. destruct n as [|n]; cbn [firstn]; rewrite ?firstn_nil; cbn [effects fold_left effect];
      destruct (eqb_spec id i); congruence.
Qed.
Print Assumptions C63_ended.

(** A conversation begins only with an answer to the own half ratchet, by the
    sender it is for, or with a record somebody sent when there was nothing. *)
Theorem C63_begun s me dir c e ev n id : byte_box s -> lived s me dir c -> proper ev -> reorders e ->
  f_full (fget c id) = None -> f_full (fget (until s c e ev n) id) <> None ->
  exists from payload, ev = Push false from payload /\
    (from = id /\ f_half (fget c id) <> None \/
     ~ secured c id /\ ~ secured c from /\ id <> ident (FullIdentity_Public me) /\
     exists q, supplies s c ev q /\ ident q = id).
Proof.
  intros B L P R S. pose proof (lived_inv _ _ _ _ B L) as Iv. unfold until, cut. rewrite fget_ops.
  assert (Me : c_me c = me).
  { clear - L. induction L as [|c e ev n L IH]; [reflexivity|]. unfold until, cut. now rewrite (proj1 (me_ops _ _)). }
  pose proof (react_shape (s_hmac s) (s_sha s) (s_x25519 s) (s_base s) (s_seal s) (s_unseal s) (s_scrypt s) (s_encap s) (s_decap s) (s_verify s) B c e ev P R) as Sh.
  revert Sh. generalize (fst (react (s_hmac s) (s_sha s) (s_x25519 s) (s_base s) (s_seal s) (s_unseal s) (s_scrypt s) (s_encap s) (s_decap s) (s_verify s) c e ev)).
  intros l Sh. destruct Sh as [l Q|p out k r C O X Nf|p r l f y C O X Xf Ne Ev Q|f y p r r' l Ev Lo F Q|f y p l Ev Lo Pc H|i l Ev H|i p r r' l Ev Lo Q|i Ev].
  - rewrite quiet_effects by now apply quiet_firstn. contradiction.
  - unfold half_ops. destruct n as [|[|[|[|n]]]]; cbn [firstn]; rewrite ?firstn_nil; cbn [effects fold_left effect];
      destruct (eqb id (ident p)); contradiction.
  - destruct (eqb_spec id (ident p)) as [->|Hne].
    + intros _. exists f, y. split; auto. right. apply exists_secured in X; auto. apply exists_secured in Xf; auto.
      repeat match goal with |- _ /\ _ => split end; auto. { rewrite <- Me. exact Ne. } exists p. auto.
    + destruct n as [|[|n]]; cbn [firstn effects fold_left effect]; destruct (eqb_spec id (ident p)); try congruence.
      change (fold_left _ ?l ?f) with (effects l id f). now rewrite quiet_effects by now apply quiet_firstn.
  - apply load_ratchet_some in Lo as [Lo Hf]. destruct (stored_inv _ _ _ Iv Lo) as (_ & _ & E). rewrite E.
    destruct (eqb_spec id f) as [->|Hne].
    + intros _. exists f, y. split; auto. left. split; [auto|congruence].
    + destruct n as [|[|n]]; cbn [firstn effects fold_left effect]; destruct (eqb_spec id f); try congruence.
      change (fold_left _ ?l ?f) with (effects l id f). now rewrite quiet_effects by now apply quiet_firstn.
  - apply load_identity_some in Lo. destruct (stored_inv _ _ _ Iv Lo) as (_ & _ & E).
    destruct n as [|[|n]]; cbn [firstn effects fold_left effect]; try contradiction.
    + destruct (eqb_spec id f); contradiction.
    + change (fold_left _ ?l ?f) with (effects l id f).
      destruct H as [Q|(out & k & r & ->)].
      * rewrite quiet_effects by now apply quiet_firstn. destruct (eqb_spec id f); cbn [f_full]; congruence.
      * unfold half_ops. rewrite E. destruct n as [|[|[|[|n]]]]; cbn [firstn]; rewrite ?firstn_nil; cbn [effects fold_left effect];
          destruct (eqb_spec id f); cbn [f_full]; congruence.
  - destruct H as [->|(to & x & ->)]; destruct n as [|[|[|n]]]; cbn [firstn]; rewrite ?firstn_nil; cbn [effects fold_left effect];
      destruct (eqb_spec id i); cbn [f_full]; congruence.
  - apply load_ratchet_some in Lo as [Lo Hf]. destruct (stored_inv _ _ _ Iv Lo) as (_ & _ & E). rewrite E.
    rewrite firstn_app, effects_app, (quiet_effects (firstn n l)) by now apply quiet_firstn.
    destruct (n - length l)%nat as [|n']; cbn [firstn effects fold_left effect]; [contradiction|].
    rewrite firstn_nil. cbn [fold_left]. destruct (eqb_spec id i) as [->|]; [congruence|contradiction].
  - destruct n as [|n]; cbn [firstn]; rewrite ?firstn_nil; cbn [effects fold_left effect];
      destruct (eqb_spec id i); cbn [f_full no_files]; congruence.
Qed.
Print Assumptions C63_begun.
