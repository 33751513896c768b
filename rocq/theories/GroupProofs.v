(** Facts about the group chats of a client. *)
From Verif Require Import Base IniModel IniMemProofs IniFileProofs XdrModel XdrProofs RpcModel RpcProofs StrconvModel HexModel CrpcModel BlobModel BlobProps AcctProofs ServerDbModel ServerDbProofs UiModel Utf8Model GroupModel.
Local Open Scope N_scope.

(** * Databases with named tables *)

Definition named_file (f : bytes) (t : tables) : Prop :=
  parse f = Some t /\ clean_db t /\ forall k, lookup t [] k = None.

Lemma clean_nil : clean_name [].
Proof. split; [split; [intros []|exact I]|intros []]. Qed.

Lemma same_clean t t' : is_map t' -> clean_db t -> same_db t t' -> clean_db t'.
Proof.
  intros [ND NS] C (L & K). unfold clean_db in *. rewrite Forall_forall in C, NS. apply Forall_forall.
  intros [n s] I. cbn [fst snd]. pose proof (In_mget _ _ _ ND I) as G. split.
  - destruct (EqB_dec n []) as [E|NE]; [rewrite E; apply clean_nil|].
    assert (Kn : In n (mkeys t)) by (apply K; auto; eapply mget_Some_keys; eauto).
    unfold mkeys in Kn. apply in_map_iff in Kn. destruct Kn as ([n' s'] & E & I'). cbn in E. subst n'. apply (C _ I').
  - apply Forall_forall. intros [k v] Ik. cbn [fst snd].
    assert (G2 : lookup t n k = Some v).
    { rewrite L. unfold lookup. rewrite G. apply In_mget; auto. apply (NS _ I). }
    unfold lookup in G2. destruct (mget t n) as [s'|] eqn:E; [|discriminate].
    apply mget_In in E. apply mget_In in G2. destruct (C _ E) as [_ F]. rewrite Forall_forall in F. exact (F _ G2).
Qed.

(** Saving such a database and opening it again. *)
Lemma saved_named f d : db_dirty d = true -> is_map (db_tables d) -> clean_db (db_tables d) ->
  (forall k, lookup (db_tables d) [] k = None) ->
  (exists f', saved f d f') /\
  forall f', saved f d f' -> exists t', named_file f' t' /\ forall n k, lookup t' n k = lookup (db_tables d) n k.
Proof.
  intros D M C R. unfold saved. rewrite D. split.
  - eexists. exists (db_tables d). split; [apply iterates_refl|reflexivity].
  - intros f' (order & I & ->). destruct (save_reopen _ _ M C (or_introl R) I) as (t' & P & S).
    exists t'. pose proof (proj1 (wf_is_map _) (parse_wf _ _ P)) as M'. split.
    + split; [exact P|]. split; [eapply same_clean; eauto|]. intros k. destruct S as [L _]. rewrite <- L. apply R.
    + intros n k. symmetry. apply S.
Qed.

Lemma saved_total f d : exists f', saved f d f'.
Proof. unfold saved. destruct (db_dirty d); [eexists; exists (db_tables d); split; [apply iterates_refl|reflexivity]|eauto]. Qed.

(** A database file that is absent or as above, and its records. *)
Definition sound (file : option bytes) : Prop :=
  match file with None => True | Some f => exists t, named_file f t end.
Definition entry (file : option bytes) (n k : bytes) : option bytes :=
  match file with
  | None => None
  | Some f => match parse f with Some t => lookup t n k | None => None end
  end.

Lemma get_lookup d n k : ini_get d n k = match lookup (db_tables d) n k with Some v => Ok v | None => Err ErrNotFound end.
Proof. unfold ini_get, lookup. destruct (mget (db_tables d) n); reflexivity. Qed.

Lemma clean_mset_record t n k v : clean_db t -> clean_name n -> clean_key k -> clean v ->
  clean_db (mset t n (mset (match mget t n with Some s => s | None => [] end) k v)).
Proof.
  intros C N K V. apply clean_db_mset; auto. split; cbn [fst snd]; auto. apply clean_section_mset; auto.
  destruct (mget t n) as [s|] eqn:E; [|constructor]. apply mget_In in E. unfold clean_db in C.
  rewrite Forall_forall in C. apply (C _ E).
Qed.

(** Setting one record of a table that need not exist yet. *)
Lemma put_lookup d n k v : let d' := fst (ini_set (ini_new_table d n) n k v) in
  db_dirty d' = true /\
  (wf_tables (db_tables d) -> wf_tables (db_tables d')) /\
  (clean_db (db_tables d) -> clean_name n -> clean_key k -> clean v -> clean_db (db_tables d')) /\
  forall n0 k0, lookup (db_tables d') n0 k0 = if eqb n0 n && eqb k0 k then Some v else lookup (db_tables d) n0 k0.
Proof.
  intros d'. subst d'. unfold ini_set, ini_new_table, ensure. cbn [db_tables].
  destruct (mget (db_tables d) n) as [s|] eqn:E.
  - rewrite E. cbn [fst db_dirty db_tables]. split; auto. split; [|split].
    + intros [W1 W2]. split; [now apply NoDup_mset|]. intros t x. rewrite mget_mset.
      destruct (eqb t n); [intros X; injection X as <-; apply NoDup_mset; eauto|apply W2].
    + intros C N K V. pose proof (clean_mset_record _ _ _ _ C N K V) as X. rewrite E in X. exact X.
    + intros n0 k0. unfold lookup. rewrite mget_mset. destruct (eqb_spec n0 n) as [Q|Q]; cbn [andb]; auto.
      subst n0. rewrite mget_mset, E. destruct (eqb k0 k); auto.
  - rewrite mget_mset_eq. cbn [fst db_dirty db_tables]. split; auto. split; [|split].
    + intros [W1 W2]. split; [now apply NoDup_mset, NoDup_mset|]. intros t x. rewrite !mget_mset.
      destruct (eqb t n); [intros X; injection X as <-; apply (NoDup_mset [] k v), NoDup_nil|apply W2].
    + intros C N K V. apply clean_db_mset.
      * apply clean_db_mset; auto. split; cbn [fst snd]; auto.
      * split; cbn [fst snd]; auto. apply clean_section_mset; auto.
    + intros n0 k0. unfold lookup. rewrite !mget_mset. destruct (eqb_spec n0 n) as [Q|Q]; cbn [andb]; auto.
      subst n0. rewrite mget_mset, E. destruct (eqb k0 k); auto.
Qed.

Lemma del_lookup d n k : mget (db_tables d) n <> None -> let d' := fst (ini_del d n k) in
  db_dirty d' = true /\
  (wf_tables (db_tables d) -> wf_tables (db_tables d')) /\
  (clean_db (db_tables d) -> clean_db (db_tables d')) /\
  forall n0 k0, lookup (db_tables d') n0 k0 = if eqb n0 n && eqb k0 k then None else lookup (db_tables d) n0 k0.
Proof.
  intros H d'. subst d'. unfold ini_del. destruct (mget (db_tables d) n) as [s|] eqn:E; [|congruence].
  cbn [fst db_dirty db_tables]. split; auto. split; [|split].
  - intros [W1 W2]. split; [now apply NoDup_mset|]. intros t x. rewrite mget_mset.
    destruct (eqb t n); [intros X; injection X as <-; apply NoDup_mdel; eauto|apply W2].
  - intros C. apply mget_In in E. pose proof C as C'. unfold clean_db in C'. rewrite Forall_forall in C'.
    destruct (C' _ E) as [N F]. apply clean_db_mset; auto. split; cbn [fst snd]; auto. now apply Forall_mdel.
  - intros n0 k0. unfold lookup. rewrite mget_mset. destruct (eqb_spec n0 n) as [Q|Q]; cbn [andb]; auto.
    subst n0. rewrite mget_mdel, E. destruct (eqb k0 k); auto.
Qed.

Lemma del_table_lookup d n : mget (db_tables d) n <> None -> let d' := fst (ini_del_table d n) in
  db_dirty d' = true /\
  (wf_tables (db_tables d) -> wf_tables (db_tables d')) /\
  (clean_db (db_tables d) -> clean_db (db_tables d')) /\
  forall n0 k0, lookup (db_tables d') n0 k0 = if eqb n0 n then None else lookup (db_tables d) n0 k0.
Proof.
  intros H d'. subst d'. unfold ini_del_table. destruct (mget (db_tables d) n) as [s|] eqn:E; [|congruence].
  cbn [fst db_dirty db_tables]. split; auto. split; [|split].
  - intros [W1 W2]. split; [now apply NoDup_mdel|]. intros t x. rewrite mget_mdel.
    destruct (eqb t n); [discriminate|apply W2].
  - intros C. now apply Forall_mdel.
  - intros n0 k0. unfold lookup. rewrite mget_mdel. destruct (eqb n0 n); auto.
Qed.

Lemma open_sound file : sound file -> exists f d t, db_open file = Some (f, d) /\ named_file f t /\
  wf_tables (db_tables d) /\ clean_db (db_tables d) /\ (forall n k, lookup (db_tables d) n k = entry file n k) /\
  (forall k, entry file [] k = None) /\ (forall n k, entry (Some f) n k = entry file n k).
Proof.
  destruct file as [f|]; cbn [sound db_open entry].
  - intros (t & P & C & R). rewrite P. exists f, (opened t false), t. split; auto. cbn [opened db_tables].
    split; [split; auto|]. split; [eapply parse_wf; eauto|]. split; [exact C|]. split; [reflexivity|]. split; [exact R|]. intros n k. now rewrite P.
  - intros _. exists (render [([], [])]), ini_fresh, [([], [])].
    assert (P : parse (render [([], [])]) = Some [([], [])]) by (vm_compute; reflexivity).
    assert (L : forall n k, lookup [([], [])] n k = None).
    { intros n k. unfold lookup. cbn [mget]. destruct (eqb _ _); reflexivity. }
    assert (C : clean_db [([], [])]) by (constructor; [split; [apply clean_nil|constructor]|constructor]).
    split; auto. split; [split; [exact P|split; [exact C|auto]]|]. split; [eapply parse_wf; eauto|].
    split; [exact C|]. split; [exact L|]. split; [auto|]. intros n k. cbn [entry]. rewrite P. apply L.
Qed.

Lemma existing_sound file : sound file -> match db_existing file with
  | None => file = None
  | Some d => wf_tables (db_tables d) /\ clean_db (db_tables d) /\ (forall n k, lookup (db_tables d) n k = entry file n k) /\
              (forall k, entry file [] k = None) /\ file <> None
  end.
Proof.
  destruct file as [f|]; cbn [sound db_existing entry]; auto. intros (t & P & C & R). rewrite P. cbn [opened db_tables].
  split; [eapply parse_wf; eauto|]. split; [exact C|]. split; [reflexivity|]. split; [exact R|discriminate].
Qed.

(** * Keys and records *)

Lemma hex_digit_range q : q < 16 -> 48 <= hex_digit q /\ hex_digit q <= 102 /\ (hex_digit q <= 57 \/ 97 <= hex_digit q).
Proof. intros Q. unfold hex_digit. destruct (q <? 10) eqn:E; lia. Qed.

Lemma hex_visible who : Forall is_byte who -> Forall (fun c => 48 <= c /\ c <= 102 /\ (c <= 57 \/ 97 <= c)) (hex_encode who).
Proof.
  intros H. unfold hex_encode. apply Forall_forall. intros c I. apply in_flat_map in I. destruct I as (x & Ix & I).
  rewrite Forall_forall in H. specialize (H _ Ix). unfold is_byte in H.
  destruct I as [<-|[<-|[]]]; apply hex_digit_range; [apply N.div_lt_upper_bound; lia|apply N.mod_lt; lia].
Qed.

Lemma hex_key who : Forall is_byte who -> who <> [] -> clean_key (hex_encode who).
Proof.
  intros H N. pose proof (hex_visible _ H) as V. split; [|split].
  - apply clean_visible. eapply Forall_impl; [|exact V]. cbn. intros; lia.
  - rewrite Forall_forall in V. intros I. apply V in I. unfold EQ in I. lia.
  - destruct who as [|x r]; [congruence|]. unfold hex_encode in *. cbn [flat_map app] in *. inversion V as [|? ? V1 _]; subst. unfold SEMI, HASH. lia.
Qed.

Lemma valid_clean n : valid_name n = true -> clean_name n.
Proof.
  intros V. unfold valid_name in V. rewrite forallb_forall in V.
  assert (A : forall c, In c n -> In c valid_letters) by (intros c I; apply mem_In; auto).
  assert (B : Forall (fun c => 45 <= c /\ c <> 61) valid_letters) by (vm_compute; repeat constructor; discriminate).
  rewrite Forall_forall in B. split.
  - apply clean_visible. apply Forall_forall. intros c I. apply A, B in I. lia.
  - intros I. apply A, B in I. unfold EQ in I. lia.
Qed.

Lemma be_bytes k n : Forall is_byte (be k n).
Proof. induction k; cbn [be]; constructor; auto. apply N.mod_lt. lia. Qed.
Lemma zero_bytes n : Forall is_byte (repeat 0 n).
Proof. apply Forall_forall. intros x Hx. apply repeat_spec in Hx. subst. reflexivity. Qed.

Lemma opaque_bytes s : Forall is_byte s -> Forall is_byte (enc xopaque s).
Proof. intros H. cbn [enc xopaque]. unfold enc_fixed. repeat (apply Forall_app; split); auto using be_bytes, zero_bytes. Qed.

Lemma invite_bytes gi : Forall is_byte (GroupInvite_Name gi) -> Forall (Forall is_byte) (GroupInvite_Members gi) ->
  Forall is_byte (GroupInvite_Description gi) -> Forall is_byte (enc GroupInvite_codec gi).
Proof.
  intros A B D. change (enc GroupInvite_codec gi) with
    (enc xopaque (GroupInvite_Name gi) ++ (be 4 (N.of_nat (length (GroupInvite_Members gi))) ++ concat (map (enc xopaque) (GroupInvite_Members gi)))
     ++ be 8 (GroupInvite_Token gi) ++ enc xopaque (GroupInvite_Description gi) ++ be 8 (to_twos 64 (GroupInvite_Expires gi))).
  assert (M : Forall is_byte (concat (map (enc xopaque) (GroupInvite_Members gi)))).
  { apply Forall_concat, Forall_map. eapply Forall_impl; [|exact B]. exact opaque_bytes. }
  apply Forall_app; split; [now apply opaque_bytes|].
  apply Forall_app; split; [apply Forall_app; split; [apply be_bytes|exact M]|].
  apply Forall_app; split; [apply be_bytes|].
  apply Forall_app; split; [now apply opaque_bytes|apply be_bytes].
Qed.

(** An invitation that survives the way to the disk and back. *)
Definition invite_ok (gi : GroupInvite) : Prop :=
  GroupInvite_ok 0 gi /\ Forall is_byte (GroupInvite_Name gi) /\ Forall (Forall is_byte) (GroupInvite_Members gi) /\
  Forall is_byte (GroupInvite_Description gi).

Definition stored (gi : GroupInvite) : bytes := b64_encode (enc GroupInvite_codec gi).

Lemma stored_clean gi : invite_ok gi -> clean (stored gi).
Proof. intros (_ & A & B & D). apply clean_b64, invite_bytes; auto. Qed.

Lemma stored_round gi : invite_ok gi -> unmarshal_invite (stored gi) = Some gi.
Proof.
  intros (O & A & B & D). unfold unmarshal_invite, stored. rewrite b64_round by (apply invite_bytes; auto).
  destruct good_GroupInvite as [R _]. specialize (R 0 gi [] O). rewrite app_nil_r in R. rewrite R. reflexivity.
Qed.

(** * The operations on the two databases *)

Definition identity (who : bytes) : Prop := length who = 32%nat /\ Forall is_byte who.
Lemma identity_ne who : identity who -> who <> [].
Proof. intros [L _] ->. discriminate. Qed.

Lemma invite_add_spec file who n nicks draw expires r file' :
  sound file -> identity who -> clean_name n -> n <> [] ->
  (forall x, invite_ok (mkGroupInvite n nicks (x mod 1000000) (bs "come join me!") expires)) ->
  invite_db_add file who n nicks draw expires r file' ->
  sound file' /\
  match r with
  | None => (entry file n (hex_encode who) <> None \/ draw = None) /\ forall n0 k0, entry file' n0 k0 = entry file n0 k0
  | Some gi => entry file n (hex_encode who) = None /\
      (exists x, draw = Some x /\ gi = mkGroupInvite n nicks (x mod 1000000) (bs "come join me!") expires) /\
      forall n0 k0, entry file' n0 k0 = if eqb n0 n && eqb k0 (hex_encode who) then Some (stored gi) else entry file n0 k0
  end.
Proof.
  intros S Id C NE OK H. unfold invite_db_add in H.
  destruct (open_sound _ S) as (f & d & t & E & NF & W & CD & L & R & EF). rewrite E in H.
  rewrite get_lookup, L in H.
  destruct (entry file n (hex_encode who)) as [v|] eqn:EN.
  - destruct H as [-> ->]. split; [exists t; exact NF|]. split; [left; congruence|exact EF].
  - destruct draw as [x|].
    + destruct H as [-> (f' & SV & ->)]. set (gi := mkGroupInvite _ _ _ _ _) in *.
      pose proof (OK x) as OKx. fold gi in OKx. unfold put_record in SV.
      destruct (put_lookup d (GroupInvite_Name gi) (hex_encode who) (stored gi)) as (D & W' & C' & L').
      destruct (saved_named f _ D) as [_ SN].
      * apply wf_is_map; auto.
      * apply C'; auto. { apply hex_key; [apply Id|now apply identity_ne]. } now apply stored_clean.
      * intros k. rewrite L', L, R. cbn [GroupInvite_Name gi]. destruct (eqb_spec [] n) as [Q|Q]; [congruence|reflexivity].
      * destruct (SN _ SV) as (t' & NF' & L2). split; [exists t'; exact NF'|]. split; auto. split; [eauto|].
        intros n0 k0. cbn [entry]. destruct NF' as [P _]. rewrite P, L2, L', L. reflexivity.
    + destruct H as [-> ->]. split; [exists t; exact NF|]. split; [now right|exact EF].
Qed.

Lemma invite_add_total file who n nicks draw expires : sound file ->
  exists r file', invite_db_add file who n nicks draw expires r file'.
Proof.
  intros S. unfold invite_db_add. destruct (open_sound _ S) as (f & d & t & E & _). rewrite E.
  destruct draw as [x|].
  - destruct (saved_total f (put_record d (mkGroupInvite n nicks (x mod 1000000) (bs "come join me!") expires) who)) as [f' F].
    destruct (ini_get d n (hex_encode who)); eauto 9.
  - destruct (ini_get d n (hex_encode who)); eauto.
Qed.

Lemma join_add_spec file from gi ok file' :
  sound file -> identity from -> clean_name (GroupInvite_Name gi) -> GroupInvite_Name gi <> [] -> invite_ok gi ->
  join_db_add file from gi ok file' ->
  sound file' /\
  if ok then entry file (GroupInvite_Name gi) (hex_encode from) = None /\
    forall n0 k0, entry file' n0 k0 = if eqb n0 (GroupInvite_Name gi) && eqb k0 (hex_encode from) then Some (stored gi) else entry file n0 k0
  else entry file (GroupInvite_Name gi) (hex_encode from) <> None /\ forall n0 k0, entry file' n0 k0 = entry file n0 k0.
Proof.
  intros S Id C NE OK H. unfold join_db_add in H.
  destruct (open_sound _ S) as (f & d & t & E & NF & W & CD & L & R & EF). rewrite E in H.
  rewrite get_lookup, L in H.
  destruct (entry file (GroupInvite_Name gi) (hex_encode from)) as [v|] eqn:EN.
  - destruct H as [-> ->]. split; [exists t; exact NF|]. split; [congruence|exact EF].
  - destruct H as [-> (f' & SV & ->)]. unfold put_record in SV.
    destruct (put_lookup d (GroupInvite_Name gi) (hex_encode from) (stored gi)) as (D & W' & C' & L').
    destruct (saved_named f _ D) as [_ SN].
    + apply wf_is_map; auto.
    + apply C'; auto. { apply hex_key; [apply Id|now apply identity_ne]. } now apply stored_clean.
    + intros k. rewrite L', L, R. destruct (eqb_spec [] (GroupInvite_Name gi)) as [Q|Q]; [congruence|reflexivity].
    + destruct (SN _ SV) as (t' & NF' & L2). split; [exists t'; exact NF'|]. split; auto.
      intros n0 k0. cbn [entry]. destruct NF' as [P _]. rewrite P, L2, L', L. reflexivity.
Qed.

(** The token under which [who] is invited to [n]. *)
Definition token_for (file : option bytes) (n who : bytes) : option N :=
  match entry file n (hex_encode who) with
  | Some v => match unmarshal_invite v with Some gi => Some (GroupInvite_Token gi) | None => None end
  | None => None
  end.

Lemma existing_tables file d : db_existing file = Some d -> exists f t, file = Some f /\ parse f = Some t /\ d = opened t false.
Proof.
  unfold db_existing. destruct file as [f|]; [|discriminate]. destruct (parse f) as [t|] eqn:P; [|discriminate].
  intros H. injection H as <-. eauto.
Qed.

(** Whether an invitation is consumed does not depend on the file being sound. *)
Lemma del_invite_ok file from gj ok file' : del_invite file from gj ok file' ->
  (ok = true <-> token_for file (GroupJoin_Name gj) from = Some (GroupJoin_Token gj)) /\ (ok = false -> file' = file).
Proof.
  unfold del_invite, token_for. destruct (db_existing file) as [d|] eqn:E.
  - destruct (existing_tables _ _ E) as (f & t & -> & P & ->). rewrite get_lookup. cbn [opened db_tables entry]. rewrite P.
    destruct (lookup t _ _) as [v|].
    + destruct (unmarshal_invite v) as [gi|].
      * destruct (N.eqb_spec (GroupInvite_Token gi) (GroupJoin_Token gj)) as [Q|Q].
        -- intros [-> _]. split; [|discriminate]. split; auto. congruence.
        -- intros [-> ->]. split; auto. split; [discriminate|]. congruence.
      * intros [-> ->]. split; auto. split; discriminate.
    + intros [-> ->]. split; auto. split; discriminate.
  - intros H. assert (X : ok = false /\ file' = file) by (destruct file; exact H). destruct X as [-> ->]. split; auto.
    split; [discriminate|]. destruct file as [f|]; cbn [entry]; [|discriminate].
    unfold db_existing in E. destruct (parse f); discriminate.
Qed.

Lemma del_invite_total file from gj : exists ok file', del_invite file from gj ok file'.
Proof.
  unfold del_invite. destruct (db_existing file) as [d|] eqn:E.
  - destruct (existing_tables _ _ E) as (f & t & -> & P & ->).
    destruct (ini_get _ _ _) as [v| |]; eauto. destruct (unmarshal_invite v) as [gi|]; eauto.
    destruct (saved_total f (fst (ini_del (opened t false) (GroupJoin_Name gj) (hex_encode from)))) as [f' F].
    destruct (_ =? _); eauto 9.
  - destruct file; eauto.
Qed.

Lemma del_invite_spec file from gj file' : sound file -> del_invite file from gj true file' ->
  sound file' /\ forall n0 k0, entry file' n0 k0 = if eqb n0 (GroupJoin_Name gj) && eqb k0 (hex_encode from) then None else entry file n0 k0.
Proof.
  intros S H. pose proof (existing_sound _ S) as X. unfold del_invite in H. destruct (db_existing file) as [d|].
  - destruct X as (W & C & L & R & NN). destruct file as [f|]; [|congruence].
    rewrite get_lookup in H. destruct (lookup (db_tables d) _ _) as [v|] eqn:EL; [|now destruct H].
    destruct (unmarshal_invite v) as [gi|]; [|now destruct H]. destruct (_ =? _); [|now destruct H].
    destruct H as [_ (f' & SV & ->)].
    assert (NT : mget (db_tables d) (GroupJoin_Name gj) <> None).
    { unfold lookup in EL. destruct (mget _ _); congruence. }
    destruct (del_lookup d (GroupJoin_Name gj) (hex_encode from) NT) as (D & W' & C' & L').
    destruct (saved_named f _ D) as [_ SN].
    + apply wf_is_map; auto.
    + auto.
    + intros k. rewrite L', L, R. destruct (_ && _); reflexivity.
    + destruct (SN _ SV) as (t' & NF' & L2). split; [exists t'; exact NF'|].
      intros n0 k0. cbn [entry]. destruct NF' as [P _]. rewrite P, L2, L', L. reflexivity.
  - subst file. now destruct H.
Qed.

Lemma del_join_spec file n token ok file' : sound file -> del_join file n token ok file' ->
  sound file' /\ if ok then forall n0 k0, entry file' n0 k0 = if eqb n0 n then None else entry file n0 k0 else file' = file.
Proof.
  intros S H. pose proof (existing_sound _ S) as X. unfold del_join in H. destruct (db_existing file) as [d|].
  - destruct X as (W & C & L & R & NN). destruct file as [f|]; [|congruence].
    assert (K : ok = false /\ file' = Some f -> sound file' /\ if ok then forall n0 k0, entry file' n0 k0 = if eqb n0 n then None else entry (Some f) n0 k0 else file' = Some f).
    { intros [-> ->]. split; auto. }
    destruct (ini_records d n) as [|[k v] [|]] eqn:ER; auto.
    destruct (unmarshal_invite v) as [gi|]; auto. destruct (_ =? _); auto.
    destruct H as [-> (f' & SV & ->)]. clear K.
    assert (NT : mget (db_tables d) n <> None).
    { unfold ini_records in ER. destruct (mget _ _); congruence. }
    destruct (del_table_lookup d n NT) as (D & W' & C' & L').
    destruct (saved_named f _ D) as [_ SN].
    + apply wf_is_map; auto.
    + auto.
    + intros k0. rewrite L', L, R. destruct (eqb _ _); reflexivity.
    + destruct (SN _ SV) as (t' & NF' & L2). split; [exists t'; exact NF'|].
      intros n0 k0. cbn [entry]. destruct NF' as [P _]. rewrite P, L2, L', L. reflexivity.
  - subst file. destruct H as [-> ->]. split; auto.
Qed.

(** * What one step can do to a group *)

Lemma save_frame c n w c' b : save_group c n w = (c', b) ->
  c_groups c' = c_groups c /\ c_invites c' = c_invites c /\ c_joins c' = c_joins c /\ c_kicks c' = c_kicks c /\
  (forall m, m <> n -> mget (c_disk c') m = mget (c_disk c) m) /\
  (b = true -> valid_name n = true /\ dir_name n = false /\ w = Written /\
     exists g, mget (c_groups c) n = Some g /\ mget (c_disk c') n = Some (enc GroupList_codec g)).
Proof.
  unfold save_group. destruct (valid_name n); cbn [negb].
  - destruct (mget (c_groups c) n) as [g|] eqn:G.
    + destruct (dir_name n) eqn:Dn.
      * intros H. apply pair_equal_spec in H. destruct H as [<- <-]. repeat split; auto; discriminate.
      * destruct w as [|[b0|]]; intros H; apply pair_equal_spec in H; destruct H as [<- <-]; cbn;
          (split; [reflexivity|split; [reflexivity|split; [reflexivity|split; [reflexivity|split]]]]); auto; try discriminate.
        -- intros m M. now apply mget_mset_ne.
        -- intros _. split; auto. split; auto. split; auto. exists g. split; auto. apply mget_mset_eq.
        -- intros m M. now apply mget_mset_ne.
    + intros H. apply pair_equal_spec in H. destruct H as [<- <-]. repeat split; auto; discriminate.
  - intros H. apply pair_equal_spec in H. destruct H as [<- <-]. repeat split; auto; discriminate.
Qed.

Lemma save_works c n g : valid_name n = true -> dir_name n = false -> mget (c_groups c) n = Some g ->
  exists c', save_group c n Written = (c', true).
Proof. intros V D G. unfold save_group. rewrite V, G, D. cbn [negb]. eauto. Qed.

Lemma delete_frame c n rm c' b : delete_group c n rm = (c', b) ->
  c_invites c' = c_invites c /\ c_joins c' = c_joins c /\ c_kicks c' = c_kicks c /\
  (forall m, m <> n -> mget (c_disk c') m = mget (c_disk c) m) /\
  c_groups c' = if valid_name n then mdel (c_groups c) n else c_groups c.
Proof.
  unfold delete_group. destruct (valid_name n); cbn [negb].
  - destruct (dir_name n); [|destruct (mhas (c_disk c) n && rm)]; intros H; apply pair_equal_spec in H; destruct H as [<- <-];
      cbn; repeat split; auto.
    intros m M. rewrite mget_mdel. destruct (eqb_spec m n); congruence.
  - intros H. apply pair_equal_spec in H. destruct H as [<- <-]. repeat split; auto.
Qed.

(** Every way in which the group [n] may become [r]. *)
Inductive change (s : self) (c : gclient) (n : bytes) : event -> option GroupList -> Prop :=
| Ch_new now st w : mget (c_groups c) n = None -> change s c n (CNew n now st w) (Some (mkGroupList n 0 now [i_id s]))
| Ch_join t w from : mget (c_groups c) n = None -> get_join (c_joins c) n t (Some from) ->
    change s c n (CJoin n t w) (Some (mkGroupList n 0 0 [from]))
| Ch_acked i w k : nth_error (c_kicks c) i = Some k -> q_name k = n -> S (q_got k) = q_want k -> mget (c_groups c) n <> None ->
    change s c n (CAcked i w) (Some (q_new k))
| Ch_force rm : change s c n (CForce n rm) None
| Ch_kill rm g : mget (c_groups c) n = Some g -> (admin g = Some (i_id s) \/ GroupList_Members g = []) ->
    change s c n (CKill n true rm) None
| Ch_rjoin from gj known w g others : GroupJoin_Name gj = n -> mget (c_groups c) n = Some g ->
    GroupList_Members g = i_id s :: others -> token_for (c_invites c) n from = Some (GroupJoin_Token gj) ->
    known from = true -> ~ In from others ->
    change s c n (RJoin from gj known w)
      (Some (mkGroupList (GroupList_Name g) (next (next (GroupList_Generation g))) (GroupList_Timestamp g) (GroupList_Members g ++ [from])))
| Ch_rpart from gp now known w g others : GroupPart_Name gp = n -> mget (c_groups c) n = Some g ->
    GroupList_Members g = i_id s :: others -> In from others ->
    change s c n (RPart from gp now known w)
      (Some (mkGroupList (GroupList_Name g) (next (GroupList_Generation g)) now (i_id s :: without from others)))
| Ch_rkicked from gk w rm g : GroupList_Name (GroupKick_NewGroupList gk) = n -> mget (c_groups c) n = Some g ->
    admin g = Some from -> GroupKick_Member gk = i_id s -> change s c n (RKick from gk w rm) None
| Ch_rkick from gk w rm g : GroupList_Name (GroupKick_NewGroupList gk) = n -> mget (c_groups c) n = Some g ->
    admin g = Some from -> GroupKick_Member gk <> i_id s -> change s c n (RKick from gk w rm) (Some (GroupKick_NewGroupList gk))
| Ch_rkill from gk rm g : GroupKill_Name gk = n -> mget (c_groups c) n = Some g -> admin g = Some from ->
    change s c n (RKill from gk rm) None
| Ch_rlist from gl w g : GroupList_Name gl = n -> mget (c_groups c) n = Some g -> admin g = Some from ->
    change s c n (RList from gl w) (Some gl)
| Ch_rupdate from gu w g : GroupList_Name (GroupUpdate_NewGroupList gu) = n -> mget (c_groups c) n = Some g -> admin g = Some from ->
    change s c n (RUpdate from gu w) (Some (GroupUpdate_NewGroupList gu))
| Ch_restart : change s c n Restart (mget (load_groups (c_disk c)) n).

Lemma mset_or (c : list (bytes * GroupList)) (n : bytes) (g : GroupList) (m : bytes) : mget (mset c n g) m = mget c m \/ (m = n /\ mget (mset c n g) m = Some g).
Proof. rewrite mget_mset. destruct (eqb_spec m n); auto. Qed.

Lemma mdel_or (c : list (bytes * GroupList)) (n m : bytes) : mget (mdel c n) m = mget c m \/ (m = n /\ mget (mdel c n) m = None).
Proof. rewrite mget_mdel. destruct (eqb_spec m n); auto. Qed.

Lemma delete_or c n rm c' b m : delete_group c n rm = (c', b) ->
  mget (c_groups c') m = mget (c_groups c) m \/ (m = n /\ mget (c_groups c') m = None).
Proof. intros H. apply delete_frame in H. destruct H as (_ & _ & _ & _ & ->). destruct (valid_name n); auto. apply mdel_or. Qed.

Lemma update_or c from gl w c' b m : update_list c from gl w = (c', b) ->
  mget (c_groups c') m = mget (c_groups c) m \/
  (m = GroupList_Name gl /\ mget (c_groups c') m = Some gl /\ exists g, mget (c_groups c) m = Some g /\ admin g = Some from).
Proof.
  unfold update_list. destruct (mget (c_groups c) (GroupList_Name gl)) as [g|] eqn:G.
  - destruct (admin g) as [a|] eqn:A.
    + destruct (eqb_spec a from) as [Q|Q].
      * intros H. apply save_frame in H. destruct H as (E & _). rewrite E. cbn [set_groups c_groups].
        destruct (mset_or (c_groups c) (GroupList_Name gl) gl m) as [|[-> X]]; auto. right. split; auto. split; auto.
        exists g. split; auto. congruence.
      * intros H. apply pair_equal_spec in H. destruct H as [<- <-]. auto.
    + intros H. apply pair_equal_spec in H. destruct H as [<- <-]. auto.
  - intros H. apply pair_equal_spec in H. destruct H as [<- <-]. auto.
Qed.

Lemma step_change s c e o c' m : gstep s c e o c' ->
  mget (c_groups c') m = mget (c_groups c) m \/ change s c m e (mget (c_groups c') m).
Proof.
  destruct e; cbn [gstep].
  - (* CNew *) unfold gc_new. destruct (if valid_name n then _ else _).
    { intros H. apply pair_equal_spec in H. destruct H as [-> ->]. auto. }
    unfold mhas. destruct (mget (c_groups c) n) eqn:G.
    { intros H. apply pair_equal_spec in H. destruct H as [-> ->]. auto. }
    destruct (save_group _ _ _) as [c1 b] eqn:S. intros H. apply pair_equal_spec in H. destruct H as [-> ->].
    apply save_frame in S. destruct S as (E & _). rewrite E. cbn [set_groups c_groups].
    destruct (mset_or (c_groups c) n (mkGroupList n 0 now [i_id s]) m) as [|[-> X]]; auto. right. rewrite X. now constructor.
  - (* CInvite *) unfold gc_invite. intros H.
    assert (X : c_groups c' = c_groups c); [|rewrite X; auto].
    destruct (mget _ _) as [g|]; [|now destruct H as [_ ->]]. destruct (admin g) as [a|]; [|now destruct H as [_ ->]].
    destruct (negb _); [now destruct H as [_ ->]|]. destruct (mem _ _); [now destruct H as [_ ->]|].
    destruct H as (r & f' & _ & -> & _). reflexivity.
  - (* CJoin *) unfold gc_join, mhas. destruct (mget (c_groups c) n) eqn:G; [intros [_ ->]; auto|].
    intros (r & J & H). destruct r as [from|]; [|destruct H as [_ ->]; auto].
    destruct (save_group _ _ _) as [c1 b] eqn:S. apply save_frame in S. destruct S as (E & _). cbn [set_groups c_groups] in E.
    assert (X : c_groups c' = c_groups c1).
    { destruct b; cbn [negb] in H; [destruct H as (b' & f' & _ & -> & _); reflexivity|now destruct H as [_ ->]]. }
    rewrite X, E. destruct (mset_or (c_groups c) n (mkGroupList n 0 0 [from]) m) as [|[-> Y]]; auto.
    right. rewrite Y. now constructor.
  - (* CKick *) unfold gc_kick. intros H. assert (X : c_groups c' = c_groups c); [|rewrite X; auto].
    destruct (mget _ _) as [g|]; [destruct (GroupList_Members g) as [|a r]|];
      [|destruct (negb _); [|destruct (eqb a who)]|]; apply pair_equal_spec in H; destruct H as [_ ->]; reflexivity.
  - (* CAcked *) intros [_ ->]. unfold kick_acked. destruct (nth_error (c_kicks c) i) as [k|] eqn:K; auto. cbn [q_got q_want].
    destruct (Nat.eqb_spec (S (q_got k)) (q_want k)) as [Q|Q]; cbn [negb]; auto. unfold mhas. cbn [set_kicks c_groups].
    destruct (mget (c_groups c) (q_name k)) eqn:G; auto. destruct (save_group _ _ _) as [c1 b] eqn:S.
    apply save_frame in S. destruct S as (E & _). cbn [fst]. rewrite E. cbn [set_groups c_groups set_kicks].
    destruct (mset_or (c_groups c) (q_name k) (q_new k) m) as [|[-> Y]]; auto. right. rewrite Y. econstructor; eauto. congruence.
  - intros [_ ->]. auto.
  - (* CForce *) destruct (delete_group c n rm) as [c1 b] eqn:D. intros [_ ->].
    destruct (delete_or _ _ _ _ _ m D) as [|[-> X]]; auto. right. rewrite X. constructor.
  - (* CKill *) unfold gc_kill. destruct online; cbn [negb].
    2:{ intros H. apply pair_equal_spec in H. destruct H as [_ ->]. auto. }
    destruct (mget (c_groups c) n) as [g|] eqn:G.
    2:{ intros H. apply pair_equal_spec in H. destruct H as [_ ->]. auto. }
    destruct (GroupList_Members g) as [|a r] eqn:M.
    + destruct (delete_group c n rm) as [c1 b] eqn:D. intros H. apply pair_equal_spec in H. destruct H as [_ ->].
      destruct (delete_or _ _ _ _ _ m D) as [|[-> X]]; auto. right. rewrite X. econstructor; eauto.
    + destruct (eqb_spec a (i_id s)) as [Q|Q]; cbn [negb].
      * destruct (delete_group c n rm) as [c1 b] eqn:D. intros H. apply pair_equal_spec in H. destruct H as [_ ->].
        destruct (delete_or _ _ _ _ _ m D) as [|[-> X]]; auto. right. rewrite X. econstructor; eauto. left.
        unfold admin. rewrite M. congruence.
      * intros H. apply pair_equal_spec in H. destruct H as [_ ->]. auto.
  - intros [_ ->]. auto.
  - (* RInvite *) intros [_ H]. assert (X : c_groups c' = c_groups c); [|rewrite X; auto].
    destruct known; [destruct H as (b & f' & _ & ->); reflexivity|now subst].
  - (* RJoin *) unfold handle_join. destruct (mget (c_groups c) (GroupJoin_Name gj)) as [g|] eqn:G; [|intros [_ ->]; auto].
    destruct (GroupList_Members g) as [|a others] eqn:M; [intros [_ ->]; auto|].
    destruct (eqb_spec a (i_id s)) as [Q|Q]; cbn [negb]; [|intros [_ ->]; auto].
    intros (b & f' & D & H). apply del_invite_ok in D. destruct D as [D _].
    destruct b; cbn [negb] in H; [|destruct H as [_ ->]; auto].
    destruct (known from) eqn:Kn; cbn [negb] in H; [|destruct H as [_ ->]; auto].
    destruct (mem from others) eqn:Me; [destruct H as [_ ->]; auto|].
    destruct (save_group _ _ _) as [c2 b] eqn:S. apply save_frame in S. destruct S as (E & _).
    cbn [set_groups c_groups set_invites] in E. destruct b; destruct H as [_ ->].
    + rewrite E. match goal with |- context [mset _ _ ?g'] => destruct (mset_or (c_groups c) (GroupJoin_Name gj) g' m) as [|[-> Y]]; auto end.
      right. subst a. rewrite Y, <- M. eapply Ch_rjoin with (others := others); [reflexivity|exact G|exact M|apply D; reflexivity|exact Kn|now apply mem_false].
    + cbn [set_groups c_groups]. left. rewrite E, !mget_mset. destruct (eqb_spec m (GroupJoin_Name gj)); congruence.
  - (* RPart *) unfold handle_part. destruct (mget (c_groups c) (GroupPart_Name gp)) as [g|] eqn:G.
    2:{ intros H. apply pair_equal_spec in H. destruct H as [_ ->]. auto. }
    destruct (GroupList_Members g) as [|a others] eqn:M.
    { intros H. apply pair_equal_spec in H. destruct H as [_ ->]. auto. }
    destruct (eqb_spec a (i_id s)) as [Q|Q]; cbn [negb].
    2:{ intros H. apply pair_equal_spec in H. destruct H as [_ ->]. auto. }
    destruct (mem from others) eqn:Me; cbn [negb].
    2:{ intros H. apply pair_equal_spec in H. destruct H as [_ ->]. auto. }
    destruct (save_group _ _ _) as [c2 b] eqn:S. apply save_frame in S. destruct S as (E & _). cbn [set_groups c_groups] in E.
    intros H. apply pair_equal_spec in H. destruct H as [_ ->]. rewrite E.
    match goal with |- context [mset _ _ ?g'] => destruct (mset_or (c_groups c) (GroupPart_Name gp) g' m) as [|[-> Y]]; auto end.
    right. rewrite Y. rewrite Q in *. eapply Ch_rpart; eauto. now apply mem_In.
  - (* RKick *) unfold handle_kick. destruct (mget (c_groups c) _) as [g|] eqn:G.
    2:{ intros H. apply pair_equal_spec in H. destruct H as [_ ->]. auto. }
    destruct (admin g) as [a|] eqn:A.
    2:{ intros H. apply pair_equal_spec in H. destruct H as [_ ->]. auto. }
    destruct (eqb_spec a from) as [Q|Q]; cbn [negb].
    2:{ intros H. apply pair_equal_spec in H. destruct H as [_ ->]. auto. }
    subst a. destruct (eqb_spec (GroupKick_Member gk) (i_id s)) as [R|R].
    + destruct (delete_group _ _ _) as [c1 b] eqn:D. intros H. apply pair_equal_spec in H. destruct H as [_ ->].
      destruct (delete_or _ _ _ _ _ m D) as [|[-> X]]; auto. right. rewrite X. eapply Ch_rkicked; eauto.
    + destruct (update_list _ _ _ _) as [c1 b] eqn:D. intros H. apply pair_equal_spec in H. destruct H as [_ ->].
      destruct (update_or _ _ _ _ _ _ m D) as [|(-> & X & _)]; auto. right. rewrite X. eapply Ch_rkick; eauto.
  - (* RKill *) unfold handle_kill. destruct (mget (c_groups c) _) as [g|] eqn:G.
    2:{ intros H. apply pair_equal_spec in H. destruct H as [_ ->]. auto. }
    destruct (admin g) as [a|] eqn:A.
    2:{ intros H. apply pair_equal_spec in H. destruct H as [_ ->]. auto. }
    destruct (eqb_spec a from) as [Q|Q]; cbn [negb].
    2:{ intros H. apply pair_equal_spec in H. destruct H as [_ ->]. auto. }
    subst a. destruct (delete_group _ _ _) as [c1 b] eqn:D. intros H. apply pair_equal_spec in H. destruct H as [_ ->].
    destruct (delete_or _ _ _ _ _ m D) as [|[-> X]]; auto. right. rewrite X. eapply Ch_rkill; eauto.
  - (* RList *) unfold handle_list. destruct (update_list _ _ _ _) as [c1 b] eqn:D. intros H. apply pair_equal_spec in H. destruct H as [_ ->].
    destruct (update_or _ _ _ _ _ _ m D) as [|(-> & X & g & G & A)]; auto. right. cbn [fst]. rewrite X. eapply Ch_rlist; eauto.
  - (* RUpdate *) unfold handle_list. destruct (update_list _ _ _ _) as [c1 b] eqn:D. intros H. apply pair_equal_spec in H. destruct H as [_ ->].
    destruct (update_or _ _ _ _ _ _ m D) as [|(-> & X & g & G & A)]; auto. right. cbn [fst]. rewrite X. eapply Ch_rupdate; eauto.
  - (* RMessage *) unfold handle_message. intros H. left. assert (X : c' = c); [|now rewrite X].
    destruct (mget _ _) as [g|]; [destruct (mem _ _); [destruct (highlight _ _ _ _ _ _)|]|]; apply pair_equal_spec in H; apply H.
  - intros [_ ->]. right. cbn [c_groups]. constructor.
Qed.

Lemma update_frame c from gl w c' b : update_list c from gl w = (c', b) ->
  c_invites c' = c_invites c /\ c_joins c' = c_joins c /\ c_kicks c' = c_kicks c.
Proof.
  unfold update_list. intros H. destruct (mget _ _) as [g|]; [destruct (admin g) as [a|]; [destruct (eqb a from)|]|];
    [apply save_frame in H; destruct H as (_ & A & B & C & _); auto| | |]; apply pair_equal_spec in H; destruct H as [<- _]; auto.
Qed.

Ltac crush := repeat match goal with
  | H : (_, _) = (_, _) |- _ => apply pair_equal_spec in H; destruct H as [? ?]; subst
  | H : save_group _ _ _ = (_, _) |- _ => apply save_frame in H; destruct H as (? & ? & ? & ? & ? & _)
  | H : delete_group _ _ _ = (_, _) |- _ => apply delete_frame in H; destruct H as (? & ? & ? & ? & ?)
  | H : update_list _ _ _ _ = (_, _) |- _ => apply update_frame in H; destruct H as (? & ? & ?)
  | H : _ /\ _ |- _ => destruct H; subst
  | H : exists _, _ |- _ => destruct H; subst
  | H : context [save_group ?a ?b ?w] |- _ => destruct (save_group a b w) as [? ?] eqn:?
  | H : context [update_list ?a ?b ?l ?w] |- _ => destruct (update_list a b l w) as [? ?] eqn:?
  | H : context [delete_group ?a ?b ?w] |- _ => destruct (delete_group a b w) as [? ?] eqn:?
  | H : context [match ?x with _ => _ end] |- _ => destruct x eqn:?
  end.

(** Only inviting and being joined touch the invitations. *)
Lemma step_invites s c e o c' : gstep s c e o c' ->
  match e with CInvite _ _ _ _ _ | RJoin _ _ _ _ => True | _ => c_invites c' = c_invites c end.
Proof.
  destruct e; cbn [gstep]; auto; intros H.
  - unfold gc_new in H. crush; cbn in *; congruence.
  - unfold gc_join in H. crush; cbn in *; congruence.
  - unfold gc_kick in H. crush; cbn in *; congruence.
  - destruct H as [_ ->]. unfold kick_acked. destruct (nth_error _ _); auto. cbn [q_got q_want].
    destruct (negb _); auto. destruct (mhas _ _); auto. destruct (save_group _ _ _) as [c1 b] eqn:S. crush. cbn in *. congruence.
  - now destruct H as [_ ->].
  - crush; cbn in *; congruence.
  - unfold gc_kill in H. crush; cbn in *; congruence.
  - now destruct H as [_ ->].
  - destruct H as [_ H]. destruct known; [destruct H as (b & f' & _ & ->); reflexivity|now subst].
  - unfold handle_part in H. crush; cbn in *; congruence.
  - unfold handle_kick in H. crush; cbn in *; congruence.
  - unfold handle_kill in H. crush; cbn in *; congruence.
  - unfold handle_list in H. destruct (update_list _ _ _ _) as [c1 b] eqn:U. crush; cbn in *; congruence.
  - unfold handle_list in H. destruct (update_list _ _ _ _) as [c1 b] eqn:U. crush; cbn in *; congruence.
  - unfold handle_message in H. crush; cbn in *; congruence.
  - now destruct H as [_ ->].
Qed.

(** The kicks under way. *)
Lemma step_kicks s c e o c' : gstep s c e o c' ->
  match e with
  | CKick n who now => c_kicks c' = c_kicks c \/
      exists g others, mget (c_groups c) n = Some g /\ GroupList_Members g = i_id s :: others /\ who <> i_id s /\
        c_kicks c' = c_kicks c ++ [mkKick n (mkGroupList (GroupList_Name g) (next (GroupList_Generation g)) now
                                     (filter (fun m => negb (eqb m who)) (GroupList_Members g))) 0 (length others)]
  | CAcked i _ => match nth_error (c_kicks c) i with
                  | None => c' = c
                  | Some k => c_kicks c' = put_kick i (mkKick (q_name k) (q_new k) (S (q_got k)) (q_want k)) (c_kicks c)
                  end
  | Restart => c_kicks c' = []
  | _ => c_kicks c' = c_kicks c
  end.
Proof.
  destruct e; cbn [gstep]; auto; intros H.
  - unfold gc_new in H. crush; cbn in *; congruence.
  - unfold gc_invite in H. crush; cbn in *; congruence.
  - unfold gc_join in H. crush; cbn in *; congruence.
  - unfold gc_kick in H. destruct (mget (c_groups c) n) as [g|] eqn:G.
    2:{ apply pair_equal_spec in H. destruct H as [_ ->]. auto. }
    destruct (GroupList_Members g) as [|a others] eqn:M.
    { apply pair_equal_spec in H. destruct H as [_ ->]. auto. }
    destruct (eqb_spec a (i_id s)) as [Q|Q]; cbn [negb] in H.
    2:{ apply pair_equal_spec in H. destruct H as [_ ->]. auto. }
    destruct (eqb_spec a who) as [R|R]; apply pair_equal_spec in H; destruct H as [_ ->]; auto.
    right. exists g, others. split; auto. subst a. rewrite M. split; [reflexivity|]. split; [congruence|]. reflexivity.
  - destruct H as [_ ->]. unfold kick_acked. destruct (nth_error _ _) as [k|]; auto. cbn [q_got q_want].
    destruct (negb _); auto. destruct (mhas _ _); auto. destruct (save_group _ _ _) as [c1 b] eqn:S. crush. cbn in *. congruence.
  - now destruct H as [_ ->].
  - crush; cbn in *; congruence.
  - unfold gc_kill in H. crush; cbn in *; congruence.
  - now destruct H as [_ ->].
  - destruct H as [_ H]. destruct known; [destruct H as (b & f' & _ & ->); reflexivity|now subst].
  - unfold handle_join in H. crush; cbn in *; congruence.
  - unfold handle_part in H. crush; cbn in *; congruence.
  - unfold handle_kick in H. crush; cbn in *; congruence.
  - unfold handle_kill in H. crush; cbn in *; congruence.
  - unfold handle_list in H. destruct (update_list _ _ _ _) as [c1 b] eqn:U. crush; cbn in *; congruence.
  - unfold handle_list in H. destruct (update_list _ _ _ _) as [c1 b] eqn:U. crush; cbn in *; congruence.
  - unfold handle_message in H. crush; cbn in *; congruence.
  - now destruct H as [_ ->].
Qed.

(** * Groups are kept under their names *)

Definition keyed (c : gclient) : Prop :=
  (forall n g, mget (c_groups c) n = Some g -> GroupList_Name g = n) /\
  Forall (fun k => GroupList_Name (q_new k) = q_name k) (c_kicks c).

Lemma put_kick_In i k l x : In x (put_kick i k l) -> x = k \/ In x l.
Proof.
  revert i. induction l as [|y r IH]; intros i; [destruct i; intros []|]. destruct i; cbn [put_kick].
  - intros [<-|I]; auto. right. now right.
  - intros [<-|I]; [right; now left|]. destruct (IH _ I); auto. right. now right.
Qed.

Lemma load_keyed disk n g : mget (load_groups disk) n = Some g -> GroupList_Name g = n.
Proof.
  unfold load_groups. generalize (lex_sort (mkeys disk)) as l.
  assert (A : forall l gs, (forall n g, mget gs n = Some g -> GroupList_Name g = n) ->
    mget (fold_left (fun gs n => match mget disk n with
      | None => gs
      | Some b => match dec GroupList_codec 0 b with
                  | None => gs
                  | Some (g, _) => if mhas gs (GroupList_Name g) then gs else mset gs (GroupList_Name g) g
                  end
      end) l gs) n = Some g -> GroupList_Name g = n).
  { induction l as [|x l IH]; intros gs H; cbn [fold_left]; [apply H|]. apply IH.
    destruct (mget disk x) as [b|]; auto. destruct (dec GroupList_codec 0 b) as [[y r]|]; auto.
    destruct (mhas gs (GroupList_Name y)); auto. intros n0 g0. rewrite mget_mset.
    destruct (eqb_spec n0 (GroupList_Name y)); [intros E; injection E as <-; auto|apply H]. }
  intros l. apply A. discriminate.
Qed.

Lemma step_keyed s c e o c' : keyed c -> gstep s c e o c' -> keyed c'.
Proof.
  intros [K Q] H. split.
  - intros n g G. destruct (step_change _ _ _ _ _ n H) as [E|C]; [apply K; congruence|].
    rewrite G in C. inversion C; subst; cbn [GroupList_Name]; auto.
    + rewrite Forall_forall in Q. apply Q. eapply nth_error_In; eauto.
    + eapply load_keyed; eauto.
  - apply step_kicks in H. destruct e; try (rewrite H; exact Q).
    + destruct H as [->|(g & others & G & M & _ & ->)]; auto. apply Forall_app. split; auto. constructor; auto.
      cbn. now apply K.
    + destruct (nth_error (c_kicks c) i) as [k|] eqn:E; [|now subst]. rewrite H. rewrite Forall_forall in *.
      intros x I. apply put_kick_In in I. destruct I as [->|I]; auto. cbn. apply Q. eapply nth_error_In; eauto.
    + rewrite H. constructor.
Qed.

Lemma new_keyed : keyed new_client.
Proof. split; [discriminate|constructor]. Qed.

Lemma run_keyed s h c : grun s new_client h c -> keyed c.
Proof. induction 1; [apply new_keyed|eapply step_keyed; eauto]. Qed.
