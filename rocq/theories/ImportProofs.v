(** Lemmas for C68: base64 read as a stream, and the file after an import. *)
From Verif Require Import Base IniModel IniMemProofs IniFileProofs HexModel XdrModel XdrProofs RpcModel RpcProofs StrconvModel ServerDbModel ServerDbProofs
  IdentityModel WelcomeModel PinModel PinProofs ImportModel.
Local Open Scope N_scope.

(** * Base64 *)

Lemma groups_prefix k : forall l x, (length l <= k)%nat -> b64_groups l = Some x -> b64_prefix l = x.
Proof.
  induction k as [|k IH]; intros l x L; [destruct l; [|cbn in L; lia]; cbn; congruence|].
  destruct l as [|c1 [|c2 [|c3 [|c4 r]]]]; cbn [b64_groups b64_prefix]; try discriminate; [congruence|].
  destruct (b64_value c1); [|discriminate]. destruct (b64_value c2); [|discriminate]. destruct (b64_value c3).
  - destruct (b64_value c4).
    + destruct (b64_groups r) as [t|] eqn:E; [|discriminate]. apply IH in E; [|cbn in L; lia]. cbv zeta. intros H. injection H as <-. now rewrite E.
    + destruct (eqb c4 61); [|discriminate]. destruct (eqb r []); [|discriminate]. cbv zeta. cbn [andb]. congruence.
  - destruct (eqb c3 61 && eqb c4 61); [|discriminate]. destruct (eqb r []); [|discriminate]. cbn [andb]. congruence.
Qed.

Lemma visible_unwrapped l : Forall (fun c => 43 <= c <= 122) l -> unwrapped l = l.
Proof.
  intros C. induction C as [|c m H _ IH]; auto. unfold unwrapped in *. cbn [filter].
  destruct (eqb_spec c 10); [lia|]. destruct (eqb_spec c 13); [lia|]. cbn [orb negb]. now rewrite IH.
Qed.
Lemma unwrapped_app a b : unwrapped (a ++ b) = unwrapped a ++ unwrapped b.
Proof. apply filter_app. Qed.

Lemma encode_groups x : Forall is_byte x -> b64_groups (b64_encode x) = Some x.
Proof. intros B. pose proof (b64_round x B) as R. unfold b64_decode in R. fold (unwrapped (b64_encode x)) in R. now rewrite visible_unwrapped in R by now apply b64_chars. Qed.
Lemma encode_prefix x : Forall is_byte x -> b64_prefix (b64_encode x) = x.
Proof. intros B. eapply groups_prefix; [reflexivity|]. now apply encode_groups. Qed.

(** One group of three. *)
Lemma encode_three a b c r : exists c1 c2 c3 c4, b64_encode (a :: b :: c :: r) = c1 :: c2 :: c3 :: c4 :: b64_encode r /\
  (is_byte a -> is_byte b -> is_byte c -> forall l, b64_prefix (c1 :: c2 :: c3 :: c4 :: l) = a :: b :: c :: b64_prefix l).
Proof.
  cbn [b64_encode]. do 4 eexists. split; [reflexivity|]. intros A B C l. 
  assert (E := encode_prefix [a; b; c]). cbn [b64_encode] in E. cbv zeta in E. specialize (E ltac:(repeat constructor; auto)).
  cbn [b64_prefix] in E |- *. 
  assert (M : forall x, x mod 64 < 64) by (intros; apply N.mod_lt; lia).
  assert (D : (a * 65536 + b * 256 + c) / 262144 < 64) by (unfold is_byte in *; apply N.div_lt_upper_bound; lia).
  rewrite !b64_value_char in E |- * by auto. cbv zeta in E |- *. injection E as E1 E2 E3. rewrite E1, E2, E3. reflexivity.
Qed.

(** What a text cut short gives is the start of what the whole gives. *)
Lemma cut_prefix k : forall t u x, (length x <= k)%nat -> Forall is_byte x -> t ++ u = b64_encode x -> exists z, x = b64_prefix t ++ z.
Proof.
  assert (SH : forall t, (length t < 4)%nat -> b64_prefix t = []).
  { intros [|? [|? [|? [|? ?]]]] L; cbn in *; auto; lia. }
  induction k as [|k IH]; intros t u x L B E.
  - destruct x; [|cbn in L; lia]. cbn in E. apply app_eq_nil in E as [-> ->]. exists []. reflexivity.
  - destruct (Nat.lt_ge_cases (length t) 4) as [T|T]; [rewrite SH by auto; exists x; reflexivity|].
    destruct x as [|a [|b [|c r]]].
    + cbn in E. apply app_eq_nil in E as [-> _]. cbn in T. lia.
    + assert (u = []) as ->.
      { apply (f_equal (@length N)) in E. rewrite app_length in E. cbn in E. destruct u; auto. cbn in E. lia. }
      rewrite app_nil_r in E. subst t. rewrite encode_prefix by auto. exists []. now rewrite app_nil_r.
    + assert (u = []) as ->.
      { apply (f_equal (@length N)) in E. rewrite app_length in E. cbn in E. destruct u; auto. cbn in E. lia. }
      rewrite app_nil_r in E. subst t. rewrite encode_prefix by auto. exists []. now rewrite app_nil_r.
    + destruct (encode_three a b c r) as (c1 & c2 & c3 & c4 & E4 & P4). rewrite E4 in E.
      destruct t as [|d1 [|d2 [|d3 [|d4 t]]]]; cbn in T; try lia. cbn [app] in E. injection E as -> -> -> -> E.
      inversion B as [|? ? B1 B']; inversion B' as [|? ? B2 B'']; inversion B'' as [|? ? B3 B3']; subst.
      rewrite P4 by auto. destruct (IH t u r) as (z & Z); auto; [cbn in L; lia|]. exists z. cbn. now rewrite <- Z.
Qed.

Lemma encode_firstn n : forall x, Forall is_byte x -> (3 * n <= length x)%nat -> b64_prefix (firstn (4 * n) (b64_encode x)) = firstn (3 * n) x.
Proof.
  induction n as [|n IH]; intros x B L; [reflexivity|].
  destruct x as [|a [|b [|c r]]]; cbn [length] in L; try lia.
  inversion B as [|? ? B1 B']; inversion B' as [|? ? B2 B'']; inversion B'' as [|? ? B3 B3']; subst.
  destruct (encode_three a b c r) as (c1 & c2 & c3 & c4 & E4 & P4). rewrite E4.
  replace (4 * S n)%nat with (S (S (S (S (4 * n))))) by lia. replace (3 * S n)%nat with (S (S (S (3 * n)))) by lia.
  cbn [firstn]. rewrite P4 by auto. rewrite IH; auto. lia.
Qed.

(** * Records *)

Definition server_ok (r : ServerRecord) : Prop :=
  pid_ok (ServerRecord_PublicIdentity r) /\ text_ok (ServerRecord_Certificate r) /\ text_ok (ServerRecord_IPandPort r).

Lemma server_bytes r : server_ok r -> Forall is_byte (enc ServerRecord_codec r).
Proof.
  intros (P & [_ C] & [_ A]).
  change (Forall is_byte (enc (xpair PublicIdentity_codec (xpair xopaque (xpair xopaque xbool)))
    (ServerRecord_PublicIdentity r, (ServerRecord_Certificate r, (ServerRecord_IPandPort r, ServerRecord_Directory r))))).
  apply pair_bytes; [now apply pid_bytes|]. apply pair_bytes; [now apply opaque_bytes|]. apply pair_bytes; [now apply opaque_bytes|].
  cbn. destruct (ServerRecord_Directory r); repeat constructor.
Qed.
Lemma server_wire r : server_ok r -> ServerRecord_ok 0 r.
Proof. intros ((P & _) & [C _] & [A _]). unfold ServerRecord_ok. auto. Qed.
Lemma server_split r : enc ServerRecord_codec r = enc PublicIdentity_codec (ServerRecord_PublicIdentity r) ++
  enc (xpair xopaque (xpair xopaque xbool)) (ServerRecord_Certificate r, (ServerRecord_IPandPort r, ServerRecord_Directory r)).
Proof. reflexivity. Qed.
Lemma client_enc c : enc ClientRecord_codec c = enc PublicIdentity_codec (ClientRecord_PublicIdentity c).
Proof. reflexivity. Qed.
Lemma rest_length c a d : (12 <= length (enc (xpair xopaque (xpair xopaque xbool)) (c, (a, d))))%nat.
Proof.
  assert (O : forall x, (4 <= length (enc xopaque x))%nat).
  { intros x. cbn [enc xopaque]. rewrite app_length, be_length. lia. }
  change (12 <= length (enc xopaque c ++ enc xopaque a ++ enc xbool d))%nat. rewrite !app_length.
  specialize (O c) as Oc. specialize (O a) as Oa. assert (D : length (enc xbool d) = 4%nat) by (destruct d; reflexivity). lia.
Qed.

(** What is read from the start of an exported record. *)
Lemma cut_client p y z : pid_ok p -> enc PublicIdentity_codec p = y ++ z -> z <> [] -> dec ClientRecord_codec 0 y = None.
Proof.
  intros (O & _) E NE. destruct (good_faithful _ _ good_ClientRecord) as (_ & _ & T).
  apply (T 0 (mkClientRecord p) y z); auto.
Qed.
Lemma long_client p w : pid_ok p -> dec ClientRecord_codec 0 (enc PublicIdentity_codec p ++ w) = Some (mkClientRecord p, w).
Proof. intros (O & _). destruct good_ClientRecord as [R _]. now apply (R 0 (mkClientRecord p) w). Qed.
Lemma cut_server r y z : server_ok r -> enc ServerRecord_codec r = y ++ z -> z <> [] -> dec ServerRecord_codec 0 y = None.
Proof. intros O E NE. destruct (good_faithful _ _ good_ServerRecord) as (_ & _ & T). apply (T 0 r y z); auto. now apply server_wire. Qed.
Lemma whole_server r : server_ok r -> dec ServerRecord_codec 0 (enc ServerRecord_codec r) = Some (r, []).
Proof. intros O. destruct good_ServerRecord as [R _]. pose proof (R 0 r [] (server_wire r O)) as X. now rewrite app_nil_r in X. Qed.
(** A client's record is no server's. *)
Lemma client_no_server p : pid_ok p -> dec ServerRecord_codec 0 (enc PublicIdentity_codec p) = None.
Proof.
  intros O. set (r := mkServerRecord p [] [] false).
  assert (Z : text_ok []) by (split; [|constructor]; unfold str_ok; cbn; split; [lia|now left]).
  apply (cut_server r _ _ (conj O (conj Z Z)) (server_split r)). discriminate.
Qed.
Lemma client_no_server_cut p y z : pid_ok p -> enc PublicIdentity_codec p = y ++ z -> dec ServerRecord_codec 0 y = None.
Proof.
  intros O E. set (r := mkServerRecord p [] [] false).
  assert (Z : text_ok []) by (split; [|constructor]; unfold str_ok; cbn; split; [lia|now left]).
  pose proof (server_split r) as S. change (ServerRecord_PublicIdentity r) with p in S. rewrite E, <- app_assoc in S.
  apply (cut_server r _ _ (conj O (conj Z Z)) S). intros H. apply app_eq_nil in H as [_ H]. discriminate.
Qed.

(** * The file after importing a record with a line break in the address *)

Definition injected (host : bytes) (m : FullIdentity) : bytes :=
  host ++ [LF] ++ bs "myidentity" ++ [SP; EQ; SP] ++ b64_encode (enc FullIdentity_codec m).

Lemma flat_map_perm {A} (f : A -> bytes) (l1 l2 : list A) x : concat (map f (l1 ++ x :: l2)) = concat (map f l1) ++ f x ++ concat (map f l2).
Proof. rewrite map_app, concat_app. reflexivity. Qed.

Lemma injected_render host m s l1 l2 : s = l1 ++ (bs "server", injected host m) :: l2 ->
  render [([], s)] = render [([], l1 ++ (bs "server", host) :: (bs "myidentity", b64_encode (enc FullIdentity_codec m)) :: l2)].
Proof.
  intros ->. unfold render, render_table. cbn [map concat fst snd]. rewrite !flat_map_perm. cbn [map concat].
  do 2 f_equal. cbn [app]. f_equal. f_equal. f_equal. rewrite app_assoc. f_equal.
  unfold render_record, injected. cbn [fst snd]. rewrite <- !app_assoc. reflexivity.
Qed.

Lemma written_injected host p cert d m f : clean host -> pid_ok p -> Forall is_byte cert -> me_ok m ->
  written None (imported_record (injected host m) p cert d) f -> filed (Some f) (Some (host, p, cert, Some m)).
Proof.
  intros H P C M (f0 & d0 & d1 & O & S & W). cbn in O. injection O as <- <-.
  destruct (sets_flat (imported_record (injected host m) p cert d) ini_fresh [] eq_refl) as (d2 & S2 & T2 & D2).
  rewrite S in S2. injection S2 as <-. destruct D2 as [D2|D2]; [|discriminate]. unfold saved in W. rewrite D2, T2 in W.
  assert (PA : PinProofs.put_all [] (imported_record (injected host m) p cert d) = imported_record (injected host m) p cert d) by reflexivity.
  rewrite PA in W. remember (imported_record (injected host m) p cert d) as kvs eqn:K.
  destruct W as (order & (mid & Pm & F2) & ->). apply Permutation_length_1_inv in Pm. subst mid.
  inversion F2 as [|? [n s] ? ? [En Ps] F3 E0 Eo]. clear E0. subst order. inversion F3 as [E1 E2|]. clear F3 E1.  cbn [fst snd] in En, Ps. subst n.
  set (v := b64_encode (enc FullIdentity_codec m)).
  rewrite K in Ps. unfold imported_record in Ps.
  destruct (in_split (bs "server", injected host m) s) as (l1 & l2 & Es); [eapply Permutation_in; [exact Ps|now left]|].
  rewrite (injected_render host m s l1 l2 Es). rewrite Es in Ps. apply Permutation_cons_app_inv in Ps.
  set (s2 := (bs "myidentity", v) :: imported_record host p cert d).
  assert (I2 : iterates [([], s2)] [([], l1 ++ (bs "server", host) :: (bs "myidentity", v) :: l2)]).
  { exists [([], s2)]. split; [apply Permutation_refl|]. constructor; [|constructor]. split; [reflexivity|]. cbn [fst snd]. unfold s2, imported_record.
    eapply perm_trans; [apply perm_swap|]. apply Permutation_cons_app, Permutation_cons_app. exact Ps. }
  destruct (fun a b => save_flat s2 _ a b I2) as (s' & F' & G').
  - unfold s2, imported_record. cbn [mkeys map fst]. repeat (constructor; [cbn; intuition discriminate|]). constructor.
  - unfold s2. constructor; [|now apply imported_clean]. cbn [fst snd]. split; [repeat constructor; cbn; intuition discriminate|]. unfold v. apply clean_b64. now apply me_bytes.
  - exists s'. split; [exact F'|]. eapply says_ext; [exact G'|]. unfold s2, imported_record. unfold says. cbn [mget].
    split; [reflexivity|]. split; [reflexivity|]. split; [reflexivity|]. split; [reflexivity|]. auto.
Qed.

Lemma written_injected_some addr p cert d : exists f, written None (imported_record addr p cert d) f.
Proof.
  destruct (sets_flat (imported_record addr p cert d) ini_fresh [] eq_refl) as (d2 & S2 & T2 & D2). destruct D2 as [D2|D2]; [|discriminate].
  exists (render (db_tables d2)), (render [([], [])]), ini_fresh, d2. split; [reflexivity|]. split; [exact S2|]. unfold saved. rewrite D2.
  exists (db_tables d2). split; [apply iterates_refl|reflexivity].
Qed.
