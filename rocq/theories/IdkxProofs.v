(** Lemmas about IdkxModel.v: the shapes of what the handlers do to the files. *)
From Verif Require Import Base XdrModel XdrProofs RpcModel RpcProofs BlobModel IdentityModel AddrModel RatchetModel IdkxModel.
Local Open Scope N_scope.

(** What an operation does to the files of [id]. *)
Definition effect (o : op) (id : bytes) (f : files) : files :=
  match o with
  | WriteId i b => if eqb id i then mkFiles (Some b) (f_full f) (f_half f) else f
  | WriteFull i r => if eqb id i then mkFiles (f_id f) (Some r) (f_half f) else f
  | WriteHalf i r => if eqb id i then mkFiles (f_id f) (f_full f) (Some r) else f
  | DropFull i => if eqb id i then mkFiles (f_id f) None (f_half f) else f
  | DropHalf i => if eqb id i then mkFiles (f_id f) (f_full f) None else f
  | DropAll i => if eqb id i then no_files else f
  | _ => f
  end.

Lemma fget_fset c i f id : fget (fset c i f) id = if eqb id i then f else fget c id.
Proof. unfold fget, fset. cbn [c_disk]. rewrite mget_mset. destruct (eqb_spec id i); reflexivity. Qed.

Lemma fget_op c o id : fget (apply_op c o) id = effect o id (fget c id).
Proof.
  destruct o; cbn [apply_op effect]; try reflexivity;
    rewrite fget_fset; destruct (eqb_spec id id0) as [->|]; reflexivity.
Qed.

Definition effects (l : list op) (id : bytes) (f : files) : files := fold_left (fun f o => effect o id f) l f.

Lemma fget_ops l : forall c id, fget (apply_ops c l) id = effects l id (fget c id).
Proof.
  induction l as [|o l IH]; intros c id; [reflexivity|]. unfold apply_ops, effects in *. cbn [fold_left]. now rewrite IH, fget_op.
Qed.

Lemma effects_app l l' id f : effects (l ++ l') id f = effects l' id (effects l id f).
Proof. apply fold_left_app. Qed.

Definition quiet (l : list op) : Prop := Forall (fun o => forall id f, effect o id f = f) l.

Lemma quiet_effects l id f : quiet l -> effects l id f = f.
Proof. intros Q. revert f. induction Q as [|o l E Q IH]; intros f; [reflexivity|]. unfold effects in *. cbn [fold_left]. now rewrite E, IH. Qed.

Lemma quiet_firstn l n : quiet l -> quiet (firstn n l).
Proof. intros Q. revert n. induction Q; destruct n; cbn [firstn]; constructor; auto. apply IHQ. Qed.

(** Own identity, mode and keys. *)
Lemma me_op c o : c_me (apply_op c o) = c_me c /\ c_dir (apply_op c o) = c_dir c.
Proof. destruct o; split; reflexivity. Qed.
Lemma me_ops l : forall c, c_me (apply_ops c l) = c_me c /\ c_dir (apply_ops c l) = c_dir c.
Proof.
  induction l as [|o l IH]; intros c; [auto|]. unfold apply_ops in *. cbn [fold_left].
  destruct (IH (apply_op c o)) as [-> ->]. apply me_op.
Qed.

(** The record stored for [id]. *)
Definition stored (c : client) (id : bytes) : option PublicIdentity :=
  match f_id (fget c id) with
  | Some b => match dec PublicIdentity_codec 0 b with Some (p, _) => Some p | None => None end
  | None => None
  end.
(** There is a ratchet or a half ratchet for [id]. *)
Definition secured (c : client) (id : bytes) : Prop := f_full (fget c id) <> None \/ f_half (fget c id) <> None.

(** Every directory has a readable identity naming the directory if it has
    anything. *)
Definition inv (c : client) : Prop :=
  forall id, (forall b, f_id (fget c id) = Some b -> exists p, b = marshal_public p /\ PublicIdentity_ok 0 p /\ ident p = id) /\
             (secured c id -> f_id (fget c id) <> None).

Lemma dec_marshal p : PublicIdentity_ok 0 p -> dec PublicIdentity_codec 0 (marshal_public p) = Some (p, []).
Proof. intros O. unfold marshal_public. rewrite <- (app_nil_r (enc _ p)). now apply good_PublicIdentity. Qed.

Lemma exists_secured c id : inv c -> identity_exists c id = false <-> ~ secured c id.
Proof.
  intros I. destruct (I id) as [_ H]. unfold secured in *. unfold identity_exists.
  destruct (f_id (fget c id)), (f_full (fget c id)), (f_half (fget c id)); cbn; split; try congruence; try tauto;
    intros; try (exfalso; apply H; [|reflexivity]; (left; congruence) || (right; congruence)); intuition congruence.
Qed.

Section Crypto.
Variable hmac : bytes -> bytes -> bytes.
Variable sha256 : bytes -> bytes.
Variable x25519 : bytes -> bytes -> option bytes.
Variable base : bytes -> bytes.
Variable seal : bytes -> bytes -> bytes -> bytes.
Variable unseal : bytes -> bytes -> bytes -> option bytes.
Variable scrypt : bytes -> bytes -> bytes.
Variable encap : bytes -> bytes -> bytes * bytes.
Variable decap : bytes -> bytes -> option bytes.
Variable verify_sig : bytes -> bytes -> bytes -> bool.
Hypothesis unseal_bytes : forall k n b m, Forall is_byte b -> unseal k n b = Some m -> Forall is_byte m.

Notation react := (react hmac sha256 x25519 base seal unseal scrypt encap decap verify_sig).
Notation cut := (cut hmac sha256 x25519 base seal unseal scrypt encap decap verify_sig).
Notation load_identity := (load_identity sha256 verify_sig).

(** [k] opens the payload of a push for this client: a blob key, or with a
    directory the key encapsulated to the client. *)
Definition opens (c : client) (k payload plain : bytes) : Prop :=
  if c_dir c then
    exists ct nonce data, payload = ct ++ nonce ++ data /\ length ct = 1047%nat /\ length nonce = 24%nat /\
      decap (private c) ct = Some k /\ unseal k nonce data = Some plain
  else exists nonce data, payload = nonce ++ data /\ length nonce = 24%nat /\ In k (c_keys c) /\ unseal k nonce data = Some plain.

(** The record an event supplies. *)
Definition carried (c : client) (ev : event) (q : PublicIdentity) : Prop :=
  match ev with
  | FindReply p => q = p
  | Accept password blob => exists salt nonce data plain rest, blob = salt ++ nonce ++ data /\
      length salt = 32%nat /\ length nonce = 24%nat /\ unseal (scrypt password salt) nonce data = Some plain /\
      dec PublicIdentity_codec 0 plain = Some (q, rest)
  | Push false from payload => exists k plain m rest, opens c k payload plain /\
      dec IdentityKX_codec 0 plain = Some (m, rest) /\ q = IdentityKX_Identity m
  | _ => False
  end.

Definition half_ops (p : PublicIdentity) out k r : list op :=
  [Send false (ident p) out; WriteId (ident p) (marshal_public p); SaveKey k; WriteHalf (ident p) r].

Inductive shape (c : client) (ev : event) : list op -> Prop :=
| ShQuiet l : quiet l -> shape c ev l
| ShHalf p out k r : carried c ev p -> PublicIdentity_ok 0 p -> identity_exists c (ident p) = false ->
    (forall from payload, ev <> Push false from payload) -> shape c ev (half_ops p out k r)
| ShFull p r l from payload : carried c ev p -> PublicIdentity_ok 0 p -> identity_exists c (ident p) = false ->
    identity_exists c from = false -> ident p <> ident (public c) -> ev = Push false from payload -> quiet l ->
    shape c ev (WriteId (ident p) (marshal_public p) :: WriteFull (ident p) r :: l)
| ShDone from payload p r r' l : ev = Push false from payload -> load_ratchet c from true = Some (r, p) ->
    f_full (fget c from) = None -> quiet l -> shape c ev (WriteFull (ident p) r' :: DropHalf from :: l)
| ShWipe from payload p l : ev = Push true from payload -> load_identity c from = Some p ->
    (exists pc rest, dec ProxyCmd_codec 0 payload = Some (pc, rest) /\ ProxyCmd_Command pc = 1) ->
    quiet l \/ (exists out k r, l = half_ops p out k r) -> shape c ev (DropHalf from :: DropFull from :: l)
| ShReset id l : ev = Reset id -> l = [] \/ (exists to x, l = [DropFull id; Send true to x]) -> shape c ev (DropHalf id :: l)
| ShMsg id p r r' l : (exists m, ev = Say id m) \/ (exists m, ev = Push false id m) -> load_ratchet c id false = Some (r, p) ->
    quiet l -> shape c ev (l ++ [WriteFull (ident p) r'])
| ShDel id : ev = Delete id -> shape c ev [DropAll id].

Lemma quiet_nil : quiet []. Proof. constructor. Qed.
Hint Resolve quiet_nil : core.
Lemma quiet_send clear to x l : quiet l -> quiet (Send clear to x :: l).
Proof. constructor; auto. Qed.
Lemma quiet_added p l : quiet l -> quiet (Added p :: l).
Proof. constructor; auto. Qed.
Lemma quiet_key k l : quiet l -> quiet (SaveKey k :: l).
Proof. constructor; auto. Qed.
Hint Resolve quiet_send quiet_added quiet_key : core.

Lemma first_key_some keys nonce data k m : first_key unseal keys nonce data = Some (k, m) -> In k keys /\ unseal k nonce data = Some m.
Proof.
  induction keys as [|k0 ks IH]; cbn [first_key]; [discriminate|].
  destruct (unseal k0 nonce data) eqn:U; [intros [= <- <-]; cbn; auto|]. intros H. apply IH in H. cbn. tauto.
Qed.

Lemma unpack_nonce_some payload nonce data : unpack_nonce payload = Ok (nonce, data) ->
  payload = nonce ++ data /\ length nonce = 24%nat.
Proof.
  unfold unpack_nonce. destruct (Nat.ltb_spec (length payload) 24); [discriminate|].
  intros H'. assert (nonce = firstn 24 payload /\ data = skipn 24 payload) as [-> ->] by (split; congruence).
  split; [now rewrite firstn_skipn|]. rewrite firstn_length. lia.
Qed.

Lemma skipn_add {A} a b (l : list A) : skipn b (skipn a l) = skipn (a + b) l.
Proof. revert l. induction a as [|a IH]; intros l; [reflexivity|]. destruct l; cbn; [apply skipn_nil|apply IH]. Qed.

Lemma unpack_salt_some payload salt nonce data : unpack_salt_nonce payload = Ok (salt, nonce, data) ->
  payload = salt ++ nonce ++ data /\ length salt = 32%nat /\ length nonce = 24%nat.
Proof.
  unfold unpack_salt_nonce. destruct (Nat.ltb_spec (length payload) 56); [discriminate|].
  intros H'. assert (salt = firstn 32 payload /\ nonce = firstn 24 (skipn 32 payload) /\ data = skipn 56 payload) as (-> & -> & ->)
    by (repeat split; congruence).
  split.
  - rewrite <- (firstn_skipn 32 payload) at 1. f_equal. rewrite <- (firstn_skipn 24 (skipn 32 payload)) at 1. f_equal.
    apply (skipn_add 32 24).
  - rewrite !firstn_length, skipn_length. lia.
Qed.

Lemma step1_shape c e p : quiet (fst (step1 base seal scrypt encap c e p)) \/
  identity_exists c (ident p) = false /\ exists out k r, fst (step1 base seal scrypt encap c e p) = half_ops p out k r.
Proof.
  unfold step1. destruct (encap (e_coins1 e) (PublicIdentity_Key p)) as [nc nk].
  destruct (fresh base seal scrypt encap e p) as [r [kx| |]]; cbn [fst]; auto.
  destruct (negb (e_ok e)); cbn [fst]; auto. destruct (identity_exists c (ident p)) eqn:X; cbn [fst]; auto.
  right. split; auto. unfold half_ops. eauto.
Qed.

Lemma step2_shape c e k plain : Forall is_byte plain ->
  quiet (fst (step2 hmac sha256 base seal unseal scrypt encap decap c e k plain)) \/
  exists m rest r l, dec IdentityKX_codec 0 plain = Some (m, rest) /\ PublicIdentity_ok 0 (IdentityKX_Identity m) /\
    identity_exists c (ident (IdentityKX_Identity m)) = false /\ ident (IdentityKX_Identity m) <> ident (public c) /\ quiet l /\
    fst (step2 hmac sha256 base seal unseal scrypt encap decap c e k plain) =
      WriteId (ident (IdentityKX_Identity m)) (marshal_public (IdentityKX_Identity m)) ::
      WriteFull (ident (IdentityKX_Identity m)) r :: l.
Proof.
  intros B. unfold step2. destruct (dec IdentityKX_codec 0 plain) as [[m rest]|] eqn:D; cbn [fst]; auto.
  destruct (eqb_spec (ident (IdentityKX_Identity m)) (ident (public c))) as [|Hne]; cbn [fst]; auto.
  destruct (fresh base seal scrypt encap e (IdentityKX_Identity m)) as [r [kx| |]]; cbn [fst]; auto.
  destruct (complete_kx _ _ _ _ _ _ _ _ _) as [r' [u| |]]; cbn [fst]; auto.
  destruct (identity_exists c (ident (IdentityKX_Identity m))) eqn:X; cbn [fst]; auto.
  right. destruct good_IdentityKX as (_ & So & _). destruct (So _ _ _ _ B D) as [[O _] _].
  destruct (e_ok e); cbn [fst app]; do 4 eexists; repeat match goal with |- _ /\ _ => split end; try reflexivity; eauto.
Qed.

Lemma load_identity_some c id p : load_identity c id = Some p -> stored c id = Some p.
Proof.
  unfold IdkxModel.load_identity, stored, unmarshal_public. destruct (f_id (fget c id)); [|discriminate].
  destruct (dec PublicIdentity_codec 0 l) as [[q r]|]; [|discriminate]. destruct (verify _ _ q); congruence.
Qed.
Lemma load_ratchet_some c id h r p : load_ratchet c id h = Some (r, p) ->
  stored c id = Some p /\ (if h then f_half (fget c id) else f_full (fget c id)) = Some r.
Proof.
  unfold load_ratchet, stored. destruct (if h then _ else _); [|discriminate]. destruct (f_id (fget c id)); [|discriminate].
  destruct (dec PublicIdentity_codec 0 l) as [[q r']|]; [|discriminate]. split; congruence.
Qed.

(** What arrives consists of bytes, and a record has fields of the right sizes. *)
Definition proper (ev : event) : Prop :=
  match ev with
  | FindReply p => PublicIdentity_ok 0 p
  | Push _ _ payload => Forall is_byte payload
  | Accept _ blob => Forall is_byte blob
  | _ => True
  end.
Definition reorders (e : env) : Prop := forall l k, In k (e_keys e l) -> In k l.

Lemma react_shape c e ev : proper ev -> reorders e -> shape c ev (fst (react c e ev)).
Proof.
  intros Pr Re. destruct ev as [clear from payload|p|pw|pw blob|id|id|id msg]; cbn [IdkxModel.react].
  - unfold handle_push. destruct (eqb_spec from (repeat 0 32)); [apply ShQuiet; cbn; auto|].
    destruct clear.
    { destruct (dec ProxyCmd_codec 0 payload) as [[pc rest]|] eqn:D; [|apply ShQuiet; cbn; auto].
      destruct (N.eqb_spec (ProxyCmd_Command pc) cmd_reset) as [Ec|]; [|apply ShQuiet; cbn; auto].
      unfold handle_reset. destruct (load_identity c from) as [p|] eqn:L; [|apply ShQuiet; cbn; auto].
      destruct (step1_shape (apply_ops c [DropHalf from; DropFull from]) e p) as [Q|[X (out & k & r & E)]];
        destruct (step1 base seal scrypt encap (apply_ops c [DropHalf from; DropFull from]) e p) as [ops u]; cbn [fst app] in *;
        eapply ShWipe; eauto 10. }
    destruct (identity_exists c from) eqn:X; cbn [negb].
    + destruct (ratchet_exists c from) eqn:R; cbn [negb].
      * destruct (load_ratchet c from false) as [[r p]|] eqn:L; [|apply ShQuiet; cbn; auto].
        destruct (RatchetModel.decrypt _ _ _ _ _ _ _ _) as [r' []]; cbn [fst]; try (apply ShQuiet; now auto).
        apply (ShMsg c _ from p r r' []); eauto.
      * unfold step3. destruct (unpack_nonce payload) as [[nonce data]| |]; cbn [fst]; try (apply ShQuiet; now auto).
        destruct (first_key _ _ _ _) as [[k plain]|]; cbn [fst]; try (apply ShQuiet; now auto).
        destruct (dec KX_codec 0 plain) as [[m rest]|]; cbn [fst]; try (apply ShQuiet; now auto).
        destruct (load_ratchet c from true) as [[r p]|] eqn:L; cbn [fst]; try (apply ShQuiet; now auto).
        destruct (complete_kx _ _ _ _ _ _ _ _ _) as [r' [u| |]]; cbn [fst]; try (apply ShQuiet; now auto).
        assert (f_full (fget c from) = None) by (unfold ratchet_exists in R; destruct (f_full (fget c from)); [discriminate|auto]).
        destruct (load_identity _ from) as [q|]; [destruct (eqb from (ident q))|]; cbn [fst app]; eapply ShDone; eauto.
    + destruct (c_dir c) eqn:Di.
      * unfold step2_directory. destruct (Nat.ltb_spec (length payload) 1047); cbn [fst]; try (apply ShQuiet; now auto).
        destruct (decap (private c) (firstn 1047 payload)) as [k|] eqn:De; cbn [fst]; try (apply ShQuiet; now auto).
        destruct (unpack_nonce (skipn 1047 payload)) as [[nonce data]| |] eqn:Un; cbn [fst]; try (apply ShQuiet; now auto).
        destruct (unseal k nonce data) as [plain|] eqn:Us; cbn [fst]; try (apply ShQuiet; now auto).
        apply unpack_nonce_some in Un as [Eq Ln].
        assert (Bd : Forall is_byte data).
        { cbn [proper] in Pr. rewrite <- (firstn_skipn 1047 payload), Eq, !Forall_app in Pr. tauto. }
        destruct (step2_shape c e k plain (unseal_bytes _ _ _ _ Bd Us)) as [Q|(m & rest & r & l & D & O & Xp & Ne & Q & E)]; [now apply ShQuiet|].
        rewrite E. apply (ShFull c _ _ r l from payload); auto. exists k, plain, m, rest. split; [|auto]. unfold opens. rewrite Di.
        exists (firstn 1047 payload), nonce, data. repeat split; auto; [now rewrite <- Eq, firstn_skipn|rewrite firstn_length; lia].
      * unfold step2_password. destruct payload as [|x y]; [apply ShQuiet; cbn; auto|]. set (payload := x :: y).
        destruct (unpack_nonce payload) as [[nonce data]| |] eqn:Un; cbn [fst]; try (apply ShQuiet; now auto).
        destruct (first_key _ _ _ _) as [[k plain]|] eqn:F; cbn [fst]; try (apply ShQuiet; now auto).
        apply unpack_nonce_some in Un as [Eq Ln]. apply first_key_some in F as [Ik Us]. apply Re in Ik.
        assert (Bd : Forall is_byte data).
        { cbn [proper] in Pr. fold payload in Pr. rewrite Eq, Forall_app in Pr. tauto. }
        destruct (step2_shape c e k plain (unseal_bytes _ _ _ _ Bd Us)) as [Q|(m & rest & r & l & D & O & Xp & Ne & Q & E)]; [now apply ShQuiet|].
        rewrite E. apply (ShFull c _ _ r l from payload); auto. exists k, plain, m, rest. split; [|auto]. unfold opens. rewrite Di. eauto 8.
  - destruct (step1_shape c e p) as [Q|[X (out & k & r & E)]]; [now apply ShQuiet|].
    rewrite E. apply ShHalf; auto; [reflexivity|discriminate].
  - unfold share_self. destruct (e_ok e); apply ShQuiet; cbn; auto.
  - unfold accept_shared. destruct (unpack_salt_nonce blob) as [[[salt nonce] data]| |] eqn:U; cbn [fst]; try (apply ShQuiet; now auto).
    destruct (unseal (scrypt pw salt) nonce data) as [plain|] eqn:Us; cbn [fst]; try (apply ShQuiet; now auto).
    destruct (dec PublicIdentity_codec 0 plain) as [[p rest]|] eqn:D; cbn [fst]; try (apply ShQuiet; now auto).
    destruct (eqb (ident (public c)) (ident p)); cbn [fst]; try (apply ShQuiet; now auto).
    destruct (identity_exists c (ident p)) eqn:X; cbn [fst]; try (apply ShQuiet; now auto).
    destruct (fresh _ _ _ _ _ _) as [r [kx| |]]; cbn [fst]; try (apply ShQuiet; now auto).
    destruct (negb (e_ok e)); cbn [fst]; try (apply ShQuiet; now auto).
    apply unpack_salt_some in U as (-> & L1 & L2). destruct good_PublicIdentity as (_ & So & _).
    assert (Bd : Forall is_byte data) by (cbn [proper] in Pr; rewrite !Forall_app in Pr; tauto).
    destruct (So _ _ _ _ (unseal_bytes _ _ _ _ Bd Us) D) as [O _].
    apply ShHalf; auto; [|discriminate]. exists salt, nonce, data, plain, rest. auto.
  - unfold user_reset. destruct (negb (e_ok e)); [apply ShQuiet; cbn; auto|].
    destruct (ratchet_exists c id); cbn [fst]; eapply ShReset; eauto.
  - cbn. now apply ShDel.
  - unfold say. destruct (negb (e_ok e)); [apply ShQuiet; cbn; auto|].
    destruct (load_ratchet c id false) as [[r p]|] eqn:L; [|apply ShQuiet; cbn; auto].
    destruct (RatchetModel.encrypt _ _ _ _ _ _ _ _ _ _) as [r' [ct|]]; cbn [fst]; [|apply ShQuiet; now auto].
    apply (ShMsg c _ id p r r' [Send false (ident p) ct]); eauto.
Qed.

Lemma stored_inv c id p : inv c -> stored c id = Some p ->
  f_id (fget c id) = Some (marshal_public p) /\ PublicIdentity_ok 0 p /\ ident p = id.
Proof.
  intros I. unfold stored. destruct (I id) as [H _]. destruct (f_id (fget c id)) as [b|]; [|discriminate].
  destruct (H b eq_refl) as (q & -> & O & E). rewrite (dec_marshal q O). intros [= <-]. auto.
Qed.

(** What one operation may be for the invariant to go on. *)
Definition legal (c : client) (o : op) : Prop :=
  match o with
  | WriteId id b => exists p, b = marshal_public p /\ PublicIdentity_ok 0 p /\ ident p = id
  | WriteFull id _ | WriteHalf id _ => f_id (fget c id) <> None
  | _ => True
  end.
Fixpoint legals (c : client) (l : list op) : Prop :=
  match l with [] => True | o :: l' => legal c o /\ legals (apply_op c o) l' end.

Lemma legal_inv c o : inv c -> legal c o -> inv (apply_op c o).
Proof.
  intros I L id. unfold secured. rewrite fget_op. specialize (I id) as [I1 I2]. unfold secured in I2.
  destruct o as [i b|i r|i r|i|i|i|k|cl to x|p]; cbn [effect legal] in *; auto;
    destruct (eqb_spec id i) as [->|]; auto; cbn [f_id f_full f_half no_files] in *; try (split; auto; fail).
  - split; [intros ? [= <-]; exact L|intros _; discriminate].
  - split; [auto|intros []; [congruence|auto]].
  - split; [auto|intros []; [auto|congruence]].
  - split; [intros; discriminate|intros []; congruence].
Qed.
Lemma legals_inv l : forall c, inv c -> legals c l -> inv (apply_ops c l).
Proof.
  induction l as [|o l IH]; intros c I L; auto. destruct L as [L1 L2]. unfold apply_ops. cbn [fold_left].
  apply IH; auto. now apply legal_inv.
Qed.
Lemma legals_firstn n : forall l c, legals c l -> legals c (firstn n l).
Proof. induction n as [|n IH]; intros [|o l] c L; cbn [firstn]; try exact I. destruct L. split; auto. Qed.
Lemma quiet_legals l : quiet l -> forall c, (forall o, In o l -> match o with WriteId _ _ | WriteFull _ _ | WriteHalf _ _ => False | _ => True end) -> legals c l.
Proof.
  induction 1 as [|o l E Q IH]; intros c H; [exact I|]. split; [|apply IH; intros; apply H; now right].
  specialize (H o (or_introl eq_refl)). destruct o; cbn; tauto.
Qed.
Lemma quiet_kind l : quiet l -> forall o, In o l -> match o with WriteId _ _ | WriteFull _ _ | WriteHalf _ _ => False | _ => True end.
Proof.
  intros Q o H. unfold quiet in Q. rewrite Forall_forall in Q. specialize (Q o H).
  destruct o as [i b|i r|i r| | | | | |]; auto; specialize (Q i no_files); cbn [effect] in Q; unfold no_files in Q; destruct (eqb_spec i i); congruence.
Qed.

Lemma shape_legals c ev l : inv c -> shape c ev l -> legals c l.
Proof.
  intros Iv S. destruct S as [l Q|p out k r C O X _|p r l from payload C O X Xf Ne Ev Q|from payload p r r' l Ev L F Q|from payload p l Ev L Pc H|id l Ev H|id p r r' l Ev L Q|id Ev].
  - apply quiet_legals; auto. now apply quiet_kind.
  - unfold half_ops. cbn [legals legal]. repeat match goal with |- _ /\ _ => split end; auto.
    + eauto.
    + rewrite !fget_op. cbn [effect]. destruct (eqb_spec (ident p) (ident p)); [discriminate|congruence].
  - cbn [legals legal]. repeat match goal with |- _ /\ _ => split end; [eauto| |apply quiet_legals; auto; now apply quiet_kind].
    rewrite !fget_op. cbn [effect]. destruct (eqb_spec (ident p) (ident p)); [discriminate|congruence].
  - apply load_ratchet_some in L as [L _]. destruct (stored_inv _ _ _ Iv L) as (Fi & O & E).
    cbn [legals legal]. repeat match goal with |- _ /\ _ => split end; auto; [rewrite E; congruence|apply quiet_legals; auto; now apply quiet_kind].
  - apply load_identity_some in L. destruct (stored_inv _ _ _ Iv L) as (Fi & O & E).
    cbn [legals legal]. split; auto. split; auto. destruct H as [Q|(out & k & r & ->)]; [apply quiet_legals; auto; now apply quiet_kind|].
    unfold half_ops. cbn [legals legal]. repeat match goal with |- _ /\ _ => split end; auto.
    + eauto.
    + rewrite !fget_op. cbn [effect]. destruct (eqb_spec (ident p) (ident p)); [discriminate|congruence].
  - destruct H as [->|(to & x & ->)]; cbn; auto.
  - apply load_ratchet_some in L as [L _]. destruct (stored_inv _ _ _ Iv L) as (Fi & O & E).
    assert (Hf : f_id (fget c (ident p)) <> None) by (rewrite E; congruence). clear Fi E L Ev Iv.
    revert c Hf. pose proof (quiet_kind l Q) as K. induction Q as [|o l Eo Q IH]; intros c Hf; [cbn; auto|].
    cbn [app legals]. split; [specialize (K o (or_introl eq_refl)); destruct o; cbn; tauto|].
    apply IH; [intros; apply K; now right|]. rewrite fget_op, Eo. exact Hf.
  - cbn; auto.
Qed.

Lemma cut_inv c e ev n : inv c -> proper ev -> reorders e -> inv (cut c e ev n).
Proof.
  intros Iv P R. unfold IdkxModel.cut. apply legals_inv; auto. apply legals_firstn. eapply shape_legals; eauto. now apply react_shape.
Qed.

Lemma stored_effect c l id : stored (apply_ops c l) id =
  match f_id (effects l id (fget c id)) with
  | Some b => match dec PublicIdentity_codec 0 b with Some (p, _) => Some p | None => None end
  | None => None
  end.
Proof. unfold stored. now rewrite fget_ops. Qed.

(** The identity file after a prefix of the operations. *)
Lemma cut_id c e ev n id : inv c -> proper ev -> reorders e ->
  stored (cut c e ev n) id = stored c id \/ ev = Delete id \/
  (~ secured c id /\ exists q, carried c ev q /\ ident q = id /\ stored (cut c e ev n) id = Some q).
Proof.
  intros Iv P R. unfold IdkxModel.cut. rewrite stored_effect. pose proof (react_shape c e ev P R) as S. revert S. generalize (fst (react c e ev)).
  assert (W : forall p l b, PublicIdentity_ok 0 p -> effects l id (fget c id) = b -> f_id b = Some (marshal_public p) ->
     match f_id b with Some b0 => match dec PublicIdentity_codec 0 b0 with Some (p0, _) => Some p0 | None => None end | None => None end = Some p).
  { intros p l b O _ ->. now rewrite (dec_marshal p O). }
  intros l S. destruct S as [l Q|p out k r C O X _|p r l from payload C O X Xf Ne Ev Q|from payload p r r' l Ev L F Q|from payload p l Ev L Pc H|i l Ev H|i p r r' l Ev L Q|i Ev].
  - left. rewrite quiet_effects by now apply quiet_firstn. reflexivity.
  - apply exists_secured in X; auto. unfold half_ops.
    destruct n as [|[|[|[|n]]]]; cbn [firstn]; rewrite ?firstn_nil; cbn [effects fold_left effect];
      destruct (eqb_spec id (ident p)) as [->|]; cbn [f_id]; try (left; reflexivity); right; right; split; auto;
      exists p; rewrite dec_marshal by auto; auto.
  - apply exists_secured in X; auto.
    destruct n as [|[|n]]; cbn [firstn effects fold_left effect].
    + left; reflexivity.
    + destruct (eqb_spec id (ident p)) as [->|]; cbn [f_id]; [|left; reflexivity].
      right; right. split; auto. exists p. rewrite dec_marshal by auto; auto.
    + change (fold_left _ ?l ?f) with (effects l id f). rewrite quiet_effects by now apply quiet_firstn.
      destruct (eqb_spec id (ident p)) as [->|]; cbn [f_id]; [|left; reflexivity].
      right; right. split; auto. exists p. rewrite dec_marshal by auto; auto.
  - left. destruct n as [|[|n]]; cbn [firstn effects fold_left effect]; try reflexivity.
    + destruct (eqb id (ident p)); reflexivity.
    + change (fold_left _ ?l ?f) with (effects l id f). rewrite quiet_effects by now apply quiet_firstn.
      destruct (eqb id from), (eqb id (ident p)); reflexivity.
  - left. apply load_identity_some in L. destruct (stored_inv _ _ _ Iv L) as (Fi & O & E).
    destruct n as [|[|n]]; cbn [firstn effects fold_left effect]; try reflexivity.
    + destruct (eqb id from); reflexivity.
    + change (fold_left _ ?l ?f) with (effects l id f). destruct H as [Q|(out & k & r & ->)].
      * rewrite quiet_effects by now apply quiet_firstn. destruct (eqb id from); reflexivity.
      * unfold half_ops. rewrite E. unfold stored.
        destruct n as [|[|[|[|n]]]]; cbn [firstn]; rewrite ?firstn_nil; cbn [effects fold_left effect];
          destruct (eqb_spec id from) as [->|]; cbn [f_id]; rewrite ?Fi, ?dec_marshal by auto; reflexivity.
  - left. destruct H as [->|(to & x & ->)]; destruct n as [|[|[|n]]]; cbn [firstn]; rewrite ?firstn_nil; cbn [effects fold_left effect];
      destruct (eqb id i); reflexivity.
  - left. rewrite firstn_app, effects_app, (quiet_effects (firstn n l)) by now apply quiet_firstn.
    destruct (n - length l)%nat as [|n']; cbn [firstn effects fold_left effect]; [reflexivity|].
    rewrite firstn_nil. cbn [fold_left]. destruct (eqb id (ident p)); reflexivity.
  - destruct (eqb_spec id i) as [->|Hne]; [right; left; congruence|]. left.
    destruct n as [|n]; cbn [firstn effects fold_left effect]; [reflexivity|]. rewrite firstn_nil. cbn [fold_left].
    destruct (eqb_spec id i); [congruence|reflexivity].
Qed.
End Crypto.
