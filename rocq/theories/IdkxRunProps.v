(** C63, where a contact's keys are not safe, and C64: what a key exchange and a
    reset lead to. *)
From Verif Require Import Base XdrModel XdrProofs RpcModel RpcProofs HexModel BlobModel IdentityModel AddrModel RatchetModel IdkxModel IdkxProofs IdkxProps IdkxRun.
Local Open Scope N_scope.

(** A client with a proper identity of its own. *)
Definition own_ok (keypair : bytes -> bytes -> Prop) (c : client) : Prop :=
  keypair (PublicIdentity_Key (public c)) (private c) /\ PublicIdentity_ok 0 (public c) /\ ident (public c) <> repeat 0 32 /\
  Forall (fun k => length k = 32%nat) (c_keys c).

Lemma not_secured c id : ~ secured c id -> f_full (fget c id) = None /\ f_half (fget c id) = None /\ identity_exists c id = false.
Proof.
  unfold secured, identity_exists. destruct (f_full (fget c id)), (f_half (fget c id)); intros H; try (exfalso; apply H; (left; discriminate) || (right; discriminate)).
  now rewrite andb_false_r.
Qed.

Lemma secured_dec c id : secured c id \/ ~ secured c id.
Proof. unfold secured. destruct (f_full (fget c id)), (f_half (fget c id)); intuition congruence. Qed.

Lemma same_me c l : public (apply_ops c l) = public c /\ private (apply_ops c l) = private c /\ c_dir (apply_ops c l) = c_dir c.
Proof. unfold public, private. destruct (me_ops l c) as [-> ->]. auto. Qed.

Section Exchange.
Variable s : suite.
Variable keypair : bytes -> bytes -> Prop.
Hypothesis Laws : laws s keypair.

Lemma half_files a pb m k a1 : PublicIdentity_ok 0 pb -> f_full (fget a (ident pb)) = None ->
  fget (apply_ops a (half_ops pb m k a1)) (ident pb) = mkFiles (Some (marshal_public pb)) None (Some a1).
Proof.
  intros O F. rewrite fget_ops. unfold half_ops. cbn [effects fold_left effect].
  destruct (eqb_spec (ident pb) (ident pb)); [|congruence]. cbn [f_id f_full f_half]. now rewrite F.
Qed.

(** A directory exchange started by [a], whatever record [a] shows and under
    whatever name its message comes. *)
Lemma exchange a b ea eb ea' from : ready s ea -> ready s eb -> ready s ea' -> c_dir b = true ->
  own_ok keypair a -> own_ok keypair b -> ident (public a) <> ident (public b) -> from <> repeat 0 32 ->
  ~ secured a (ident (public b)) -> ~ secured b (ident (public a)) -> ~ secured b from ->
  verify (s_sha s) (s_verify s) (public b) = true ->
  exists a1 kxa kxb k ra rb,
    step1 (s_base s) (s_seal s) (s_scrypt s) (s_encap s) a ea (public b) =
      (half_ops (public b) (opening s ea (public a) (public b) kxa) k a1, Ok tt) /\
    reaction s b eb (Push false from (opening s ea (public a) (public b) kxa)) = (respond_ops s eb k (public a) rb kxb, Ok tt) /\
    reaction s (apply_ops a (half_ops (public b) (opening s ea (public a) (public b) kxa) k a1)) ea'
      (Push false (ident (public b)) (answer s eb k kxb)) =
      ([WriteFull (ident (public b)) ra; DropHalf (ident (public b)); Added (public b)], Ok tt) /\
    matched s ra rb.
Proof.
  intros Ra Rb Ra' Di (Ka & Oa & Za & La) (Kb & Ob & Zb & Lb) Ne Nz Sa Sb Sf V.
  destruct (pair_up s keypair Laws ea eb (public a) (public b) (private a) (private b) Ra Rb Ka Kb) as
    (a1 & b1 & kxa & kxb & ra & rb & Fa & Fb & Oka & Okb & Ca & Cb & M).
  destruct (not_secured _ _ Sa) as (Fa1 & Fa2 & Xa). destruct (not_secured _ _ Sb) as (_ & _ & Xb). destruct (not_secured _ _ Sf) as (_ & _ & Xf).
  exists a1, kxa, kxb, (one_key s ea (public b)), ra, rb. repeat match goal with |- _ /\ _ => split end; auto.
  - now apply step1_run.
  - now apply push_dir with (keypair := keypair) (b1 := b1).
  - apply push_answer with (keypair := keypair) (a1 := a1); auto; try (rewrite half_files by auto; reflexivity).
    + rewrite keys_ops. apply in_or_app. right. cbn. auto.
    + rewrite keys_ops. apply Forall_app. split; [auto|]. cbn. constructor; auto. unfold one_key. apply Laws.
Qed.

Lemma respond_files b eb k pa rb kxb : PublicIdentity_ok 0 pa -> f_half (fget b (ident pa)) = None ->
  fget (apply_ops b (respond_ops s eb k pa rb kxb)) (ident pa) = mkFiles (Some (marshal_public pa)) (Some rb) None.
Proof.
  intros O F. rewrite fget_ops. unfold respond_ops. cbn [effects fold_left effect].
  destruct (eqb_spec (ident pa) (ident pa)); [|congruence]. cbn [f_id f_full f_half]. now rewrite F.
Qed.

Lemma final_files a pb m k a1 ra : PublicIdentity_ok 0 pb -> f_full (fget a (ident pb)) = None ->
  fget (apply_ops (apply_ops a (half_ops pb m k a1)) [WriteFull (ident pb) ra; DropHalf (ident pb); Added pb]) (ident pb) =
    mkFiles (Some (marshal_public pb)) (Some ra) None.
Proof.
  intros O F. rewrite fget_ops, half_files by auto. cbn [effects fold_left effect].
  destruct (eqb_spec (ident pb) (ident pb)); [|congruence]. reflexivity.
Qed.

Lemma stored_files c id p f h : PublicIdentity_ok 0 p -> fget c id = mkFiles (Some (marshal_public p)) f h -> stored c id = Some p.
Proof. intros O E. unfold stored. rewrite E. cbn [f_id]. now rewrite (dec_marshal p O). Qed.
End Exchange.

(** * C64: the honest runs *)

(** Two clients talk: each has the other's record and a ratchet, and the ratchets
    belong together. *)
Definition talking (s : suite) (a b : client) : Prop :=
  stored a (ident (public b)) = Some (public b) /\ stored b (ident (public a)) = Some (public a) /\
  f_half (fget a (ident (public b))) = None /\ f_half (fget b (ident (public a))) = None /\
  exists ra rb, f_full (fget a (ident (public b))) = Some ra /\ f_full (fget b (ident (public a))) = Some rb /\ matched s ra rb.

(** With a directory: [a] looks [b] up, [b] receives the first message, [a] the
    answer; whatever was said before, by then they talk. *)
Theorem C64_find s keypair a b ea eb ea' : laws s keypair -> ready s ea -> ready s eb -> ready s ea' -> c_dir b = true ->
  own_ok keypair a -> own_ok keypair b -> ident (public a) <> ident (public b) ->
  ~ secured a (ident (public b)) -> ~ secured b (ident (public a)) -> verify (s_sha s) (s_verify s) (public b) = true ->
  exists m1 m2,
    let a1 := after s a ea (FindReply (public b)) in
    let b1 := after s b eb (Push false (ident (public a)) m1) in
    let a2 := after s a1 ea' (Push false (ident (public b)) m2) in
    c_out a1 = c_out a ++ [(false, ident (public b), m1)] /\
    c_out b1 = c_out b ++ [(false, ident (public a), m2)] /\ c_out a2 = c_out a1 /\
    c_added b1 = c_added b ++ [public a] /\ c_added a2 = c_added a ++ [public b] /\ talking s a2 b1.
Proof.
  intros La Ra Rb Ra' Di Oa Ob Ne Sa Sb V.
  destruct (exchange s keypair La a b ea eb ea' (ident (public a)) Ra Rb Ra' Di Oa Ob Ne (proj1 (proj2 (proj2 Oa))) Sa Sb Sb V) as
    (a1 & kxa & kxb & k & ra & rb & E1 & E2 & E3 & M).
  exists (opening s ea (public a) (public b) kxa), (answer s eb k kxb).
  assert (A1 : after s a ea (FindReply (public b)) = apply_ops a (half_ops (public b) (opening s ea (public a) (public b) kxa) k a1))
    by (unfold after, done; cbn [react]; now rewrite E1).
  assert (B1 : after s b eb (Push false (ident (public a)) (opening s ea (public a) (public b) kxa)) = apply_ops b (respond_ops s eb k (public a) rb kxb))
    by (unfold after, done; unfold reaction in E2; now rewrite E2).
  cbv zeta. rewrite A1, B1. assert (A2 : forall x, after s x ea' (Push false (ident (public b)) (answer s eb k kxb)) = apply_ops x (fst (reaction s x ea' (Push false (ident (public b)) (answer s eb k kxb))))) by reflexivity.
  rewrite A2, E3. cbn [fst]. destruct Oa as (Ka & Oa & Za & Fa), Ob as (Kb & Ob & Zb & Fb).
  destruct (not_secured _ _ Sa) as (Fa1 & Fa2 & _). destruct (not_secured _ _ Sb) as (Fb1 & Fb2 & _).
  repeat match goal with |- _ /\ _ => split end.
  - rewrite out_ops. reflexivity.
  - rewrite out_ops. reflexivity.
  - rewrite (out_ops [_; _; _]). cbn. now rewrite app_nil_r.
  - rewrite added_ops. reflexivity.
  - rewrite !added_ops. cbn. now rewrite app_nil_r.
  - unfold talking. rewrite !(proj1 (same_me _ _)). pose proof (final_files a (public b) (opening s ea (public a) (public b) kxa) k a1 ra Ob Fa1) as Ga.
    pose proof (respond_files s b eb k (public a) rb kxb Oa Fb2) as Gb. rewrite Ga, Gb.
    rewrite (stored_files _ _ _ _ _ Ob Ga), (stored_files _ _ _ _ _ Oa Gb). cbn [f_half f_full].
    repeat match goal with |- _ /\ _ => split end; auto. exists ra, rb. auto.
Qed.
Print Assumptions C64_find.

(** With a password: [b] shares its record, [a] accepts it and so on. *)
Theorem C64_password s keypair a b e0 ea eb ea' password : laws s keypair -> ready s e0 -> ready s ea -> ready s eb -> ready s ea' ->
  c_dir b = false -> own_ok keypair a -> own_ok keypair b -> ident (public a) <> ident (public b) ->
  ~ secured a (ident (public b)) -> ~ secured b (ident (public a)) -> verify (s_sha s) (s_verify s) (public b) = true ->
  exists m1 m2,
    let blob := shared_blob (s_seal s) (s_scrypt s) b e0 password in
    let b0 := after s b e0 (Share password) in
    let a1 := after s a ea (Accept password blob) in
    let b1 := after s b0 eb (Push false (ident (public a)) m1) in
    let a2 := after s a1 ea' (Push false (ident (public b)) m2) in
    c_out a1 = c_out a ++ [(false, ident (public b), m1)] /\
    c_out b1 = c_out b ++ [(false, ident (public a), m2)] /\ c_out a2 = c_out a1 /\
    c_added b1 = c_added b ++ [public a] /\ c_added a2 = c_added a ++ [public b] /\ talking s a2 b1.
Proof.
  intros La R0 Ra Rb Ra' Di (Ka & Oa & Za & Fa) (Kb & Ob & Zb & Fb) Ne Sa Sb V.
  destruct (pair_up s keypair La ea eb (public a) (public b) (private a) (private b) Ra Rb Ka Kb) as
    (a1 & b1 & kxa & kxb & ra & rb & Ha & Hb & Oka & Okb & Ca & Cb & M).
  destruct (not_secured _ _ Sa) as (Fa1 & Fa2 & Xa). destruct (not_secured _ _ Sb) as (Fb1 & Fb2 & Xb).
  set (dk := s_scrypt s password (e_salt1 e0)).
  set (m1 := pack_nonce (e_nonce1 ea) (s_seal s dk (e_nonce1 ea) (enc IdentityKX_codec (mkIdentityKX (public a) (to_wire kxa))))).
  exists m1, (answer s eb dk kxb). cbv zeta.
  assert (B0 : after s b e0 (Share password) = apply_ops b [SaveKey dk]).
  { unfold after, done. cbn [react]. unfold share_self. assert (e_ok e0 = true) as -> by apply R0. reflexivity. }
  assert (A1 : after s a ea (Accept password (shared_blob (s_seal s) (s_scrypt s) b e0 password)) = apply_ops a (half_ops (public b) m1 dk a1)).
  { unfold after, done. cbn [react]. unfold accept_shared, shared_blob, share, new_key, derive_key, BlobModel.encrypt, pack_salt_nonce.
    assert (Ls : length (e_salt1 e0) = 32%nat) by apply R0. assert (Ln : length (e_nonce1 e0) = 24%nat) by apply R0.
    unfold unpack_salt_nonce. destruct (Nat.ltb_spec (length (e_salt1 e0 ++ e_nonce1 e0 ++ s_seal s (s_scrypt s password (e_salt1 e0)) (e_nonce1 e0) (enc PublicIdentity_codec (public b)))) 56) as [Hl|_];
      [rewrite !app_length in Hl; lia|].
    set (box := s_seal s (s_scrypt s password (e_salt1 e0)) (e_nonce1 e0) (enc PublicIdentity_codec (public b))).
    assert (T1 : firstn 32 (e_salt1 e0 ++ e_nonce1 e0 ++ box) = e_salt1 e0) by (rewrite <- Ls, firstn_app, firstn_all, Nat.sub_diag; cbn [firstn]; apply app_nil_r).
    assert (T2 : skipn 32 (e_salt1 e0 ++ e_nonce1 e0 ++ box) = e_nonce1 e0 ++ box) by (rewrite <- Ls, skipn_app, skipn_all, Nat.sub_diag; reflexivity).
    assert (T3 : skipn 56 (e_salt1 e0 ++ e_nonce1 e0 ++ box) = box).
    { change 56%nat with (32 + 24)%nat. rewrite <- skipn_add, T2, <- Ln, skipn_app, skipn_all, Nat.sub_diag. reflexivity. }
    rewrite T1, T2, T3. rewrite <- Ln, firstn_app, firstn_all, Nat.sub_diag. cbn [firstn]. rewrite app_nil_r. unfold box.
    destruct La as (B1 & _). rewrite B1. rewrite <- (app_nil_r (enc PublicIdentity_codec (public b))).
    destruct good_PublicIdentity as (Rt & _ & _). rewrite (Rt 0 (public b) [] Ob).
    destruct (eqb_spec (ident (public a)) (ident (public b))); [contradiction|]. rewrite Xa, Ha.
    assert (e_ok ea = true) as -> by apply Ra. reflexivity. }
  rewrite B0, A1.
  assert (X0 : forall id, fget (apply_ops b [SaveKey dk]) id = fget b id) by (intros; rewrite fget_ops; reflexivity).
  assert (E2 : reaction s (apply_ops b [SaveKey dk]) eb (Push false (ident (public a)) m1) = (respond_ops s eb dk (public a) rb kxb, Ok tt)).
  { apply push_password with (keypair := keypair) (b1 := b1); auto.
    - cbn. apply in_or_app. right. now left.
    - cbn. apply Forall_app. split; auto. constructor; auto. unfold dk. apply La. }
  assert (E3 : reaction s (apply_ops a (half_ops (public b) m1 dk a1)) ea' (Push false (ident (public b)) (answer s eb dk kxb)) =
     ([WriteFull (ident (public b)) ra; DropHalf (ident (public b)); Added (public b)], Ok tt)).
  { apply push_answer with (keypair := keypair) (a1 := a1); auto; try (rewrite half_files by auto; reflexivity).
    + rewrite keys_ops. apply in_or_app. right. cbn. auto.
    + rewrite keys_ops. apply Forall_app. split; [auto|]. cbn. constructor; auto. unfold dk. apply La. }
  assert (S : forall x e ev, after s x e ev = apply_ops x (fst (reaction s x e ev))) by reflexivity.
  rewrite (S (apply_ops b [SaveKey dk])), E2, S, E3. cbn [fst].
  repeat match goal with |- _ /\ _ => split end.
  - rewrite out_ops. reflexivity.
  - rewrite !out_ops. cbn. now rewrite app_nil_r.
  - rewrite (out_ops [_; _; _]). cbn. now rewrite app_nil_r.
  - rewrite !added_ops. cbn. now rewrite app_nil_r.
  - rewrite !added_ops. cbn. now rewrite app_nil_r.
  - unfold talking. rewrite !(proj1 (same_me _ _)). pose proof (final_files a (public b) m1 dk a1 ra Ob Fa1) as Ga.
    assert (Fb3 : f_half (fget (apply_ops b [SaveKey dk]) (ident (public a))) = None) by now rewrite X0.
    pose proof (respond_files s (apply_ops b [SaveKey dk]) eb dk (public a) rb kxb Oa Fb3) as Gb. rewrite Ga, Gb.
    rewrite (stored_files _ _ _ _ _ Ob Ga), (stored_files _ _ _ _ _ Oa Gb). cbn [f_half f_full].
    repeat match goal with |- _ /\ _ => split end; auto. exists ra, rb. auto.
Qed.
Print Assumptions C64_password.

(** * C64: reset *)

Definition known (s : suite) (a b : client) : Prop :=
  f_id (fget a (ident (public b))) = Some (marshal_public (public b)) /\ verify (s_sha s) (s_verify s) (public b) = true.

Lemma hex_len l : length (hex_encode l) = (2 * length l)%nat.
Proof. unfold hex_encode. induction l as [|x y IH]; [reflexivity|]. cbn [flat_map app length]. rewrite IH. lia. Qed.

Lemma proxy_ok a : PublicIdentity_ok 0 (public a) ->
  ProxyCmd_ok 0 (mkProxyCmd cmd_reset (bs "reset ratchet initiated by: " ++ hex_encode (ident (public a)))).
Proof.
  intros (_ & _ & _ & _ & Hi & _). unfold ProxyCmd_ok, cmd_reset. cbn [ProxyCmd_Command ProxyCmd_Message].
  split; [vm_compute; congruence|]. apply small_opaque. rewrite app_length, hex_len. unfold ident. unfold size_ok in Hi. cbn [bs length Ascii.N_of_ascii]. lia.
Qed.

Definition gone (id : bytes) : list op := [DropHalf id; DropFull id].

Lemma gone_files c id l : quiet l -> fget (apply_ops c (gone id ++ l)) id = mkFiles (f_id (fget c id)) None None.
Proof.
  intros Q. rewrite fget_ops, effects_app, (quiet_effects l) by auto. unfold gone. cbn [effects fold_left effect].
  destruct (eqb_spec id id); [|congruence]. reflexivity.
Qed.

Lemma gone_unsecured c id l : quiet l -> ~ secured (apply_ops c (gone id ++ l)) id.
Proof. intros Q. unfold secured. rewrite gone_files by auto. cbn. intuition congruence. Qed.

Lemma own_gone keypair c id clear to x : own_ok keypair c -> own_ok keypair (apply_ops c (gone id)) /\ own_ok keypair (apply_ops c (gone id ++ [Send clear to x])).
Proof. intros H. split; exact H. Qed.

Definition reset_text (a : client) : bytes :=
  enc ProxyCmd_codec (mkProxyCmd cmd_reset (bs "reset ratchet initiated by: " ++ hex_encode (ident (public a)))).

Lemma user_reset_run s a ea id : ready s ea -> f_full (fget a id) <> None ->
  reaction s a ea (Reset id) = (gone id ++ [Send true id (reset_text a)], Ok tt).
Proof.
  intros R F. unfold reaction. cbn [react]. unfold user_reset. assert (e_ok ea = true) as -> by apply R.
  unfold ratchet_exists. destruct (f_full (fget a id)); [reflexivity|congruence].
Qed.

Lemma push_reset_run s b eb p msg : PublicIdentity_ok 0 p -> ident p <> repeat 0 32 ->
  f_id (fget b (ident p)) = Some (marshal_public p) -> verify (s_sha s) (s_verify s) p = true -> ProxyCmd_ok 0 (mkProxyCmd cmd_reset msg) ->
  reaction s b eb (Push true (ident p) (enc ProxyCmd_codec (mkProxyCmd cmd_reset msg))) =
    (gone (ident p) ++ fst (step1 (s_base s) (s_seal s) (s_scrypt s) (s_encap s) (apply_ops b (gone (ident p))) eb p),
     snd (step1 (s_base s) (s_seal s) (s_scrypt s) (s_encap s) (apply_ops b (gone (ident p))) eb p)).
Proof.
  intros O Nz Fi V Op. unfold reaction. cbn [react]. unfold handle_push. destruct (eqb_spec (ident p) (repeat 0 32)); [contradiction|].
  rewrite <- (app_nil_r (enc ProxyCmd_codec _)). destruct good_ProxyCmd as (Rt & _ & _). rewrite Rt by exact Op.
  cbn [ProxyCmd_Command]. rewrite N.eqb_refl. unfold handle_reset, load_identity. rewrite Fi. unfold unmarshal_public.
  rewrite (dec_marshal p O), V. fold (gone (ident p)).
  destruct (step1 (s_base s) (s_seal s) (s_scrypt s) (s_encap s) (apply_ops b (gone (ident p))) eb p). reflexivity.
Qed.

Lemma after_run s x e ev : after s x e ev = apply_ops x (fst (reaction s x e ev)).
Proof. reflexivity. Qed.

Lemma apply_app c l l' : apply_ops c (l ++ l') = apply_ops (apply_ops c l) l'.
Proof. apply fold_left_app. Qed.

(** One side resets: with a directory both end up with new ratchets that belong
    together, whatever state the ratchets were in. *)
Theorem C64_reset s keypair a b ea eb ea' eb' : laws s keypair -> ready s ea -> ready s eb -> ready s ea' -> ready s eb' -> c_dir a = true ->
  own_ok keypair a -> own_ok keypair b -> ident (public a) <> ident (public b) -> known s a b -> known s b a ->
  f_full (fget a (ident (public b))) <> None ->
  exists m0 m1 m2,
    let a0 := after s a ea (Reset (ident (public b))) in
    let b1 := after s b eb (Push true (ident (public a)) m0) in
    let a1 := after s a0 ea' (Push false (ident (public b)) m1) in
    let b2 := after s b1 eb' (Push false (ident (public a)) m2) in
    c_out a0 = c_out a ++ [(true, ident (public b), m0)] /\
    c_out b1 = c_out b ++ [(false, ident (public a), m1)] /\
    c_out a1 = c_out a0 ++ [(false, ident (public b), m2)] /\ c_out b2 = c_out b1 /\ talking s b2 a1.
Proof.
  intros La Ra Rb Ra' Rb' Di Oa Ob Ne [Fab Vb] [Fba Va] Full.
  set (b' := apply_ops b (gone (ident (public a)))).
  set (a0 := apply_ops a (gone (ident (public b)) ++ [Send true (ident (public b)) (reset_text a)])).
  assert (Sb : ~ secured b' (ident (public a))).
  { unfold b'. rewrite <- (app_nil_r (gone _)). apply gone_unsecured. apply quiet_nil. }
  assert (Sa : ~ secured a0 (ident (public b))) by (apply gone_unsecured; repeat constructor).
  destruct (own_gone keypair b (ident (public a)) true [] [] Ob) as [Ob' _]. fold b' in Ob'.
  destruct (own_gone keypair a (ident (public b)) true (ident (public b)) (reset_text a) Oa) as [_ Oa0]. fold a0 in Oa0.
  pose proof Oa as (Ka & Oka & Za & Fa). pose proof Ob as (Kb & Okb & Zb & Fb).
  destruct (exchange s keypair La b' a0 eb ea' eb' (ident (public b)) Rb Ra' Rb' Di Ob' Oa0 (not_eq_sym Ne) Zb Sb Sa Sa Va) as
    (b1 & kxb & kxa & k & rb & ra & E1 & E2 & E3 & M).
  change (public a0) with (public a) in *. change (public b') with (public b) in *.
  exists (reset_text a), (opening s eb (public b) (public a) kxb), (answer s ea' k kxa). cbv zeta.
  assert (A0 : after s a ea (Reset (ident (public b))) = a0) by (rewrite after_run, user_reset_run by auto; reflexivity).
  assert (B1 : after s b eb (Push true (ident (public a)) (reset_text a)) = apply_ops b' (half_ops (public a) (opening s eb (public b) (public a) kxb) k b1)).
  { rewrite after_run. unfold reset_text. rewrite push_reset_run; auto; [|now apply proxy_ok]. fold b'. rewrite E1. cbn [fst]. now rewrite apply_app. }
  rewrite A0, B1, (after_run s a0), E2, after_run, E3. cbn [fst].
  repeat match goal with |- _ /\ _ => split end.
  - unfold a0. rewrite out_ops. reflexivity.
  - rewrite out_ops. unfold b'. rewrite out_ops. cbn. now rewrite app_nil_r.
  - rewrite (out_ops (respond_ops _ _ _ _ _ _)). reflexivity.
  - rewrite (out_ops [_; _; _]). cbn. now rewrite app_nil_r.
  - unfold talking. rewrite !(proj1 (same_me _ _)). change (public b') with (public b). change (public a0) with (public a).
    destruct (not_secured _ _ Sa) as (Fa1 & Fa2 & _). destruct (not_secured _ _ Sb) as (Fb1 & Fb2 & _).
    pose proof (final_files b' (public a) (opening s eb (public b) (public a) kxb) k b1 rb Oka Fb1) as Gb.
    pose proof (respond_files s a0 ea' k (public b) ra kxa Okb Fa2) as Ga. rewrite Ga, Gb.
    rewrite (stored_files _ _ _ _ _ Okb Ga), (stored_files _ _ _ _ _ Oka Gb). cbn [f_half f_full].
    repeat match goal with |- _ /\ _ => split end; auto. exists rb, ra. auto.
Qed.
Print Assumptions C64_reset.

(** None of the keys opens the message read as a nonce and a box. *)
Definition opens_none (s : suite) (c : client) (m : bytes) : Prop :=
  forall k, In k (c_keys c) -> s_unseal s k (firstn 24 m) (skipn 24 m) = None.

Lemma first_none s keys n d : (forall k, In k keys -> s_unseal s k n d = None) -> first_key (s_unseal s) keys n d = None.
Proof. induction keys as [|k ks IH]; intros H; cbn [first_key]; [reflexivity|]. rewrite H by now left. apply IH. intros; apply H; now right. Qed.

(** A message that is neither for a ratchet nor the start of a directory exchange
    and opens with no key does nothing. *)
Lemma push_none s a ea from m : ready s ea -> opens_none s a m -> f_full (fget a from) = None ->
  (identity_exists a from = true \/ c_dir a = false) -> fst (reaction s a ea (Push false from m)) = [].
Proof.
  intros R On Ff H. unfold reaction. cbn [react]. unfold handle_push. destruct (eqb from (repeat 0 32)); [reflexivity|].
  assert (Fn : first_key (s_unseal s) (e_keys ea (c_keys a)) (firstn 24 m) (skipn 24 m) = None).
  { apply first_none. intros k Hk. apply On. destruct R as (_ & _ & _ & _ & _ & Re & _). eapply Permutation_in; [apply Permutation_sym, Re|exact Hk]. }
  assert (ratchet_exists a from = false) as -> by (unfold ratchet_exists; now rewrite Ff). cbn [negb].
  destruct (identity_exists a from) eqn:X; cbn [negb].
  - unfold step3, unpack_nonce. destruct (length m <? 24)%nat; [reflexivity|]. now rewrite Fn.
  - destruct H as [H| ->]; [discriminate|]. unfold step2_password, unpack_nonce. destruct m as [|x m']; [reflexivity|].
    destruct (length (x :: m') <? 24)%nat; [reflexivity|]. now rewrite Fn.
Qed.

(** What a client has for a contact: only the half ratchet of an exchange it began. *)
Definition half_only (c : client) (id : bytes) : Prop := f_full (fget c id) = None /\ f_half (fget c id) <> None /\ f_id (fget c id) <> None.
Definition no_ratchet (c : client) (id : bytes) : Prop := f_full (fget c id) = None /\ f_half (fget c id) = None.

Lemma half_exists c id : half_only c id -> identity_exists c id = true.
Proof. intros (F & H & I). unfold identity_exists. destruct (f_id _); [|congruence]. destruct (f_half _); [|congruence]. cbn. apply orb_true_r. Qed.

(** Answering a reset leaves the half ratchet and one message out. *)
Lemma reset_answer s keypair a b eb : laws s keypair -> ready s eb -> own_ok keypair a -> own_ok keypair b -> known s b a ->
  exists m1, let b1 := after s b eb (Push true (ident (public a)) (reset_text a)) in
    c_out b1 = c_out b ++ [(false, ident (public a), m1)] /\ half_only b1 (ident (public a)).
Proof.
  intros La Rb (Ka & Oka & Za & Fa) (Kb & Okb & Zb & Fb) [Fba Va].
  set (b' := apply_ops b (gone (ident (public a)))).
  assert (Sb : ~ secured b' (ident (public a))).
  { unfold b'. rewrite <- (app_nil_r (gone _)). apply gone_unsecured. constructor. }
  destruct (not_secured _ _ Sb) as (F1 & F2 & X).
  destruct (fresh_ok s keypair La eb (public a) Rb) as (r & kx & Fr & Ok).
  exists (opening s eb (public b') (public a) kx). cbv zeta.
  rewrite after_run. unfold reset_text. rewrite push_reset_run; auto; [|now apply proxy_ok]. fold b'.
  rewrite (step1_run s b' eb (public a) r kx Rb Fr X). cbn [fst]. rewrite apply_app. fold b'. split.
  - rewrite out_ops. unfold b'. rewrite out_ops. cbn. now rewrite app_nil_r.
  - unfold half_only. rewrite half_files by auto. cbn. repeat split; congruence.
Qed.

(** Without a directory a reset does not come to an end: the contact answers with
    the kind of message only directories know. *)
Theorem C64_reset_password_refuted s keypair a b ea eb ea' : laws s keypair -> ready s ea -> ready s eb -> ready s ea' -> c_dir a = false ->
  own_ok keypair a -> own_ok keypair b -> known s b a -> f_full (fget a (ident (public b))) <> None ->
  exists m0 m1,
    let a0 := after s a ea (Reset (ident (public b))) in
    let b1 := after s b eb (Push true (ident (public a)) m0) in
    let a1 := after s a0 ea' (Push false (ident (public b)) m1) in
    c_out a0 = c_out a ++ [(true, ident (public b), m0)] /\ c_out b1 = c_out b ++ [(false, ident (public a), m1)] /\
    (opens_none s a m1 -> a1 = a0) /\ no_ratchet a0 (ident (public b)) /\ half_only b1 (ident (public a)).
Proof.
  intros La Ra Rb Ra' Di Oa Ob Kn Full. destruct (reset_answer s keypair a b eb La Rb Oa Ob Kn) as (m1 & O1 & H1).
  exists (reset_text a), m1. cbv zeta.
  assert (A0 : after s a ea (Reset (ident (public b))) = apply_ops a (gone (ident (public b)) ++ [Send true (ident (public b)) (reset_text a)]))
    by (rewrite after_run, user_reset_run by auto; reflexivity).
  assert (Fg : fget (after s a ea (Reset (ident (public b)))) (ident (public b)) = mkFiles (f_id (fget a (ident (public b)))) None None)
    by (rewrite A0; apply gone_files; repeat constructor).
  repeat match goal with |- _ /\ _ => split end; auto.
  - rewrite A0, out_ops. reflexivity.
  - intros On. rewrite after_run, push_none; auto.
    + rewrite A0. exact On.
    + now rewrite Fg.
    + right. now rewrite A0.
  - unfold no_ratchet. rewrite Fg. auto.
Qed.
Print Assumptions C64_reset_password_refuted.

(** Both reset at once: each answers the other's reset, the answers cross, and
    neither is taken for what it is. *)
Theorem C64_crossed_refuted s keypair a b ea eb ea' eb' ea'' eb'' : laws s keypair ->
  ready s ea -> ready s eb -> ready s ea' -> ready s eb' -> ready s ea'' -> ready s eb'' ->
  own_ok keypair a -> own_ok keypair b -> known s a b -> known s b a ->
  f_full (fget a (ident (public b))) <> None -> f_full (fget b (ident (public a))) <> None ->
  exists ma mb na nb,
    let a0 := after s a ea (Reset (ident (public b))) in
    let b0 := after s b eb (Reset (ident (public a))) in
    let a1 := after s a0 ea' (Push true (ident (public b)) mb) in
    let b1 := after s b0 eb' (Push true (ident (public a)) ma) in
    let a2 := after s a1 ea'' (Push false (ident (public b)) nb) in
    let b2 := after s b1 eb'' (Push false (ident (public a)) na) in
    c_out a1 = c_out a ++ [(true, ident (public b), ma); (false, ident (public b), na)] /\
    c_out b1 = c_out b ++ [(true, ident (public a), mb); (false, ident (public a), nb)] /\
    (opens_none s a1 nb -> opens_none s b1 na -> a2 = a1 /\ b2 = b1) /\
    half_only a1 (ident (public b)) /\ half_only b1 (ident (public a)).
Proof.
  intros La Ra Rb Ra' Rb' Ra'' Rb'' Oa Ob Kab Kba Fa Fb.
  set (a0 := after s a ea (Reset (ident (public b)))). set (b0 := after s b eb (Reset (ident (public a)))).
  assert (A0 : a0 = apply_ops a (gone (ident (public b)) ++ [Send true (ident (public b)) (reset_text a)]))
    by (unfold a0; rewrite after_run, user_reset_run by auto; reflexivity).
  assert (B0 : b0 = apply_ops b (gone (ident (public a)) ++ [Send true (ident (public a)) (reset_text b)]))
    by (unfold b0; rewrite after_run, user_reset_run by auto; reflexivity).
  assert (Ka0 : known s a0 b).
  { split; [|apply Kab]. rewrite A0, gone_files by (repeat constructor). apply Kab. }
  assert (Kb0 : known s b0 a).
  { split; [|apply Kba]. rewrite B0, gone_files by (repeat constructor). apply Kba. }
  assert (Oa0 : own_ok keypair a0) by (rewrite A0; exact Oa). assert (Ob0 : own_ok keypair b0) by (rewrite B0; exact Ob).
  destruct (reset_answer s keypair b a0 ea' La Ra' Ob Oa0 Ka0) as (na & On & Hn).
  destruct (reset_answer s keypair a b0 eb' La Rb' Oa Ob0 Kb0) as (nb & Om & Hm).
  exists (reset_text a), (reset_text b), na, nb. cbv zeta. repeat match goal with |- _ /\ _ => split end; auto.
  - rewrite On, A0, out_ops. cbn. now rewrite <- app_assoc.
  - rewrite Om, B0, out_ops. cbn. now rewrite <- app_assoc.
  - intros Na Nb. split.
    + rewrite (after_run s (after s a0 _ _)), push_none; auto; [apply Hn|]. left. now apply half_exists.
    + rewrite (after_run s (after s b0 _ _)), push_none; auto; [apply Hm|]. left. now apply half_exists.
Qed.
Print Assumptions C64_crossed_refuted.

(** From there nothing the user can type at the contact leads out: neither saying
    something nor another reset sends anything or makes a ratchet. *)
Definition types (id : bytes) (ev : event) : Prop := match ev with Say i _ => i = id | Reset i => i = id | _ => False end.
Fixpoint typed (s : suite) (c : client) (l : list (env * event)) : client :=
  match l with [] => c | (e, ev) :: l' => typed s (after s c e ev) l' end.

Theorem C64_stuck s c id l : f_full (fget c id) = None -> Forall (fun x => types id (snd x)) l ->
  c_out (typed s c l) = c_out c /\ f_full (fget (typed s c l) id) = None.
Proof.
  revert c. induction l as [|[e ev] l IH]; intros c F H; [auto|]. inversion H as [|x y Ht Hl]; subst. cbn [snd] in Ht. cbn [typed].
  assert (Hs : c_out (after s c e ev) = c_out c /\ f_full (fget (after s c e ev) id) = None).
  { rewrite after_run. unfold reaction. destruct ev; cbn [types] in Ht; try contradiction; subst; cbn [react].
    - unfold user_reset. destruct (e_ok e); cbn [negb fst]; [|auto]. unfold ratchet_exists. rewrite F. cbn [is_some fst].
      split; [rewrite out_ops; cbn; apply app_nil_r|]. rewrite fget_ops. cbn [effects fold_left effect]. now destruct (eqb id id).
    - unfold say, load_ratchet. rewrite F. destruct (e_ok e); auto. }
  destruct Hs as [H1 H2]. destruct (IH _ H2 Hl) as [H3 H4]. rewrite H3, H1. auto.
Qed.
Print Assumptions C64_stuck.

(** * C63: where a contact's keys are not safe *)

(** Whoever can make the server deliver a message under the contact's name ends the
    conversation: no key of the contact is needed. *)
Theorem C63_reset_anyone s c e id p msg : load_identity (s_sha s) (s_verify s) c id = Some p -> ident p = id -> id <> repeat 0 32 ->
  (length msg <= 1000)%nat ->
  let c' := after s c e (Push true id (enc ProxyCmd_codec (mkProxyCmd cmd_reset msg))) in
  f_full (fget c' id) = None /\ (e_ok e = false -> f_half (fget c' id) = None).
Proof.
  intros Li Ip Nz Lm. cbv zeta. rewrite after_run. unfold reaction. cbn [react]. unfold handle_push.
  destruct (eqb_spec id (repeat 0 32)); [contradiction|]. rewrite <- (app_nil_r (enc ProxyCmd_codec _)). destruct good_ProxyCmd as (Rt & _ & _).
  rewrite Rt by (split; [vm_compute; congruence|now apply small_opaque]). cbn [ProxyCmd_Command]. rewrite N.eqb_refl.
  unfold handle_reset. rewrite Li. fold (gone id). set (c1 := apply_ops c (gone id)).
  assert (G : fget c1 id = mkFiles (f_id (fget c id)) None None) by (unfold c1; rewrite <- (app_nil_r (gone id)); apply gone_files; constructor).
  destruct (step1 (s_base s) (s_seal s) (s_scrypt s) (s_encap s) c1 e p) as [ops r] eqn:E1. cbn [fst]. rewrite apply_app. fold c1. rewrite fget_ops, G.
  unfold step1 in E1. destruct (s_encap s (e_coins1 e) (PublicIdentity_Key p)) as [nc nk]. destruct (fresh _ _ _ _ e p) as [r0 [kx| |]]; cbn [negb] in E1.
  - destruct (e_ok e); cbn [negb] in E1.
    + destruct (identity_exists c1 (ident p)); injection E1 as <- _; cbn [effects fold_left effect]; [split; [auto|discriminate]|].
      rewrite Ip. destruct (eqb_spec id id); [|congruence]. cbn. split; [auto|discriminate].
    + injection E1 as <- _. auto.
  - injection E1 as <- _. auto.
  - injection E1 as <- _. auto.
Qed.
Print Assumptions C63_reset_anyone.

(** The record with another key: it need not be signed. *)
Definition with_key (p : PublicIdentity) (pk : bytes) : PublicIdentity :=
  mkPublicIdentity (PublicIdentity_Name p) (PublicIdentity_Nick p) (PublicIdentity_SigKey p) pk (PublicIdentity_Identity p) (PublicIdentity_Digest p) (PublicIdentity_Signature p).

Lemma with_key_ok p pk : PublicIdentity_ok 0 p -> length pk = 1218%nat -> PublicIdentity_ok 0 (with_key p pk).
Proof. intros (A & B & C & D & E & F & G) L. unfold PublicIdentity_ok, with_key, size_ok in *. cbn. rewrite L. auto 8. Qed.

(** With a directory, while there is no ratchet for a contact that is in the
    address book, anyone with a key pair of his own replaces the contact's record
    by one with his key and shares the new ratchet; the message may come under any
    name without a ratchet. *)
Theorem C63_replaced_refuted s keypair b eb em em' p pk sk from : laws s keypair -> ready s eb -> ready s em -> ready s em' -> c_dir b = true ->
  own_ok keypair b -> PublicIdentity_ok 0 p -> ident p <> repeat 0 32 -> ident p <> ident (public b) -> verify (s_sha s) (s_verify s) (public b) = true ->
  f_id (fget b (ident p)) = Some (marshal_public p) -> ~ secured b (ident p) -> from <> repeat 0 32 -> ~ secured b from ->
  keypair pk sk -> length pk = 1218%nat ->
  exists m rb rm, let b' := after s b eb (Push false from m) in
    stored b' (ident p) = Some (with_key p pk) /\ f_full (fget b' (ident p)) = Some rb /\ matched s rm rb /\
    c_added b' = c_added b ++ [with_key p pk].
Proof.
  intros La Rb Rm Rm' Di Ob Op Nz Ne V Fi Sb Nf Sf Kp Lp.
  set (m := mkClient (mkFullIdentity (with_key p pk) [] sk) true [] [] [] []).
  assert (Om : own_ok keypair m).
  { unfold own_ok, m, public, private. cbn. repeat split; auto; apply (with_key_ok p pk Op Lp). }
  assert (Sm : ~ secured m (ident (public b))) by (unfold secured; cbn; intuition congruence).
  destruct (exchange s keypair La m b em eb em' from Rm Rb Rm' Di Om Ob Ne Nf Sm Sb Sf V) as (m1 & kxm & kxb & k & rm & rb & _ & E2 & _ & M).
  exists (opening s em (public m) (public b) kxm), rb, rm. cbv zeta. rewrite after_run, E2. cbn [fst].
  destruct (not_secured _ _ Sb) as (_ & Fh & _).
  pose proof (respond_files s b eb k (public m) rb kxb (with_key_ok p pk Op Lp) Fh) as G.
  change (ident (public m)) with (ident p) in G. rewrite G. repeat match goal with |- _ /\ _ => split end; auto.
  - apply (stored_files _ _ _ _ _ (with_key_ok p pk Op Lp) G).
Qed.
Print Assumptions C63_replaced_refuted.

(** Together: a server, having none of the contact's keys, takes an existing
    conversation over as soon as the user answers the sudden silence with a reset. *)
Theorem C63_takeover_refuted s keypair b e0 e1 eb em em' p pk sk msg : laws s keypair -> ready s e0 -> ready s e1 -> ready s eb -> ready s em -> ready s em' ->
  c_dir b = true -> own_ok keypair b -> PublicIdentity_ok 0 p -> ident p <> repeat 0 32 -> ident p <> ident (public b) ->
  verify (s_sha s) (s_verify s) (public b) = true -> verify (s_sha s) (s_verify s) p = true ->
  f_id (fget b (ident p)) = Some (marshal_public p) -> keypair pk sk -> length pk = 1218%nat -> (length msg <= 1000)%nat ->
  exists m rb rm,
    let b0 := after s b e0 (Push true (ident p) (enc ProxyCmd_codec (mkProxyCmd cmd_reset msg))) in
    let b1 := after s b0 e1 (Reset (ident p)) in
    let b2 := after s b1 eb (Push false (ident p) m) in
    stored b2 (ident p) = Some (with_key p pk) /\ f_full (fget b2 (ident p)) = Some rb /\ matched s rm rb.
Proof.
  intros La R0 R1 Rb Rm Rm' Di Ob Op Nz Ne V Vp Fi Kp Lp Lm.
  assert (Li : load_identity (s_sha s) (s_verify s) b (ident p) = Some p).
  { unfold load_identity, unmarshal_public. now rewrite Fi, (dec_marshal p Op), Vp. }
  destruct (C63_reset_anyone s b e0 (ident p) p msg Li eq_refl Nz Lm) as [Ff _].
  set (b0 := after s b e0 (Push true (ident p) (enc ProxyCmd_codec (mkProxyCmd cmd_reset msg)))) in *.
  set (b1 := after s b0 e1 (Reset (ident p))).
  assert (B1 : b1 = apply_ops b0 [DropHalf (ident p)]).
  { unfold b1. rewrite after_run. unfold reaction. cbn [react]. unfold user_reset. assert (e_ok e1 = true) as -> by apply R1. unfold ratchet_exists. now rewrite Ff. }
  assert (G1 : fget b1 (ident p) = mkFiles (f_id (fget b0 (ident p))) None None).
  { rewrite B1, fget_ops. cbn [effects fold_left effect]. destruct (eqb_spec (ident p) (ident p)); [|congruence]. now rewrite Ff. }
  assert (E0 : b0 = apply_ops (apply_ops b (gone (ident p))) (fst (step1 (s_base s) (s_seal s) (s_scrypt s) (s_encap s) (apply_ops b (gone (ident p))) e0 p))).
  { assert (Opc : ProxyCmd_ok 0 (mkProxyCmd cmd_reset msg)) by (split; [vm_compute; congruence|now apply small_opaque]).
    unfold b0. rewrite after_run, push_reset_run by assumption. cbn [fst]. now rewrite apply_app. }
  assert (S1 : ~ secured b1 (ident p)) by (unfold secured; rewrite G1; cbn; intuition congruence).
  assert (Sg : ~ secured (apply_ops b (gone (ident p))) (ident p)) by (rewrite <- (app_nil_r (gone _)); apply gone_unsecured; constructor).
  destruct (not_secured _ _ Sg) as (Fg & _ & Xg).
  destruct (fresh_ok s keypair La e0 p R0) as (r & kx & Fr & Okx).
  rewrite (step1_run s _ e0 p r kx R0 Fr Xg) in E0. cbn [fst] in E0.
  assert (Fi1 : f_id (fget b1 (ident p)) = Some (marshal_public p)).
  { rewrite G1. cbn [f_id]. rewrite E0, half_files by auto. reflexivity. }
  assert (Pu : public b1 = public b) by (rewrite B1, E0, !(proj1 (same_me _ _)); reflexivity).
  assert (Ob1 : own_ok keypair b1).
  { destruct Ob as (K & O & Z & F). unfold own_ok. rewrite Pu. split; [|split; [exact O|split; [exact Z|]]].
    - rewrite B1, E0. exact K.
    - rewrite B1, E0, !keys_ops. cbn. rewrite !app_nil_r. apply Forall_app. split; auto. constructor; auto. unfold one_key. apply La. }
  destruct (C63_replaced_refuted s keypair b1 eb em em' p pk sk (ident p) La Rb Rm Rm') as (m & rb & rm & St & F & M & _); auto; try (now rewrite Pu).
  - now rewrite B1, E0.
  - exists m, rb, rm. auto.
Qed.
Print Assumptions C63_takeover_refuted.
