(** Proofs about the transport session. *)
From Verif Require Import Base XdrModel XdrProofs SessionModel.
Local Open Scope N_scope.

(** * Specification: little endian numbers and counter nonces *)

Fixpoint le (k : nat) (n : N) : bytes :=
  match k with O => [] | S k' => n mod 256 :: le k' (n / 256) end.
Fixpoint of_le (b : bytes) : N :=
  match b with [] => 0 | x :: r => x + 256 * of_le r end.

(** The nonce of message number [i]. *)
Definition nonce_at (i : N) : bytes := le 8 i ++ repeat 0 16.

(** * Counters *)

Lemma le_length k n : length (le k n) = k.
Proof. revert n. induction k; intros; simpl; auto. Qed.

Lemma of_le_le k : forall n, of_le (le k n) = n mod 256 ^ N.of_nat k.
Proof.
  induction k as [|k IH]; intros n.
  - simpl. now rewrite N.mod_1_r.
  - cbn [le of_le]. rewrite IH.
    replace (N.of_nat (S k)) with (N.succ (N.of_nat k)) by lia.
    rewrite N.pow_succ_r'. rewrite N.mod_mul_r by (try apply N.pow_nonzero; lia). reflexivity.
Qed.

Lemma of_le_lt b : Forall is_byte b -> of_le b < 256 ^ N.of_nat (length b).
Proof.
  induction 1 as [|x b Hx _ IH]; [reflexivity|].
  cbn [of_le length]. replace (N.of_nat (S (length b))) with (N.succ (N.of_nat (length b))) by lia.
  rewrite N.pow_succ_r'. unfold is_byte in Hx. lia.
Qed.

Lemma le_of_le b : Forall is_byte b -> le (length b) (of_le b) = b.
Proof.
  induction 1 as [|x b Hx _ IH]; [reflexivity|].
  cbn [of_le length le]. unfold is_byte in Hx.
  replace (x + 256 * of_le b) with (x + of_le b * 256) by lia.
  rewrite N.mod_add, N.mod_small, N.div_add, N.div_small by lia.
  rewrite N.add_0_l. now rewrite IH.
Qed.

Lemma inc_bytes_le k : forall c b, Forall is_byte b -> (k <= length b)%nat -> c <= 1 ->
  inc_bytes k c b = le k (of_le (firstn k b) + c) ++ skipn k b /\
  Forall is_byte (inc_bytes k c b).
Proof.
  induction k as [|k IH]; intros c b Hb Hl Hc; [split; auto|].
  destruct b as [|x b]; [simpl in Hl; lia|].
  inversion Hb as [|? ? Hx Hb']; subst. unfold is_byte in Hx.
  cbn [inc_bytes firstn skipn of_le le app length] in *.
  assert (Hc' : (c + x) / 256 <= 1).
  { apply N.lt_succ_r. apply N.div_lt_upper_bound; lia. }
  destruct (IH ((c + x) / 256) b Hb' ltac:(lia) Hc') as [E F].
  rewrite E in *. split.
  - f_equal.
    + replace (x + 256 * of_le (firstn k b) + c) with (c + x + of_le (firstn k b) * 256) by lia.
      now rewrite N.mod_add.
    + replace (x + 256 * of_le (firstn k b) + c) with (c + x + of_le (firstn k b) * 256) by lia.
      rewrite N.div_add by lia. do 2 f_equal. lia.
  - constructor; auto. unfold is_byte. apply N.mod_lt. lia.
Qed.

Lemma inc_seq_spec seq : Forall is_byte seq -> (8 <= length seq)%nat ->
  inc_seq seq = le 8 (of_le (firstn 8 seq) + 1) ++ skipn 8 seq /\ Forall is_byte (inc_seq seq).
Proof. intros H1 H2. apply inc_bytes_le; auto. lia. Qed.

Lemma le_bytes k : forall n, Forall is_byte (le k n).
Proof. induction k; intros n; simpl; constructor; auto. apply N.mod_lt. lia. Qed.

Lemma le_mod k : forall n, le k (n mod 256 ^ N.of_nat k) = le k n.
Proof.
  intros n. pose proof (le_of_le (le k n) (le_bytes k n)) as H.
  rewrite le_length, of_le_le in H. exact H.
Qed.

Lemma le_inj k m n : le k m = le k n -> m mod 256 ^ N.of_nat k = n mod 256 ^ N.of_nat k.
Proof. intros H. now rewrite <- !of_le_le, H. Qed.

Lemma firstn_app_exact {A} (x y : list A) : firstn (length x) (x ++ y) = x.
Proof. rewrite firstn_app, firstn_all, Nat.sub_diag. simpl. apply app_nil_r. Qed.
Lemma skipn_app_exact {A} (x y : list A) : skipn (length x) (x ++ y) = y.
Proof. rewrite skipn_app, skipn_all, Nat.sub_diag. reflexivity. Qed.

Fixpoint iter_inc (n : nat) (seq : bytes) : bytes :=
  match n with O => seq | S n' => inc_seq (iter_inc n' seq) end.

Lemma iter_inc_spec n seq : Forall is_byte seq -> (8 <= length seq)%nat ->
  iter_inc n seq = le 8 (of_le (firstn 8 seq) + N.of_nat n) ++ skipn 8 seq.
Proof.
  intros Hb Hl. induction n as [|n IH].
  - rewrite N.add_0_r. cbn [iter_inc].
    assert (Hf : Forall is_byte (firstn 8 seq)).
    { rewrite <- (firstn_skipn 8 seq) in Hb. apply Forall_app in Hb. tauto. }
    pose proof (le_of_le (firstn 8 seq) Hf) as E.
    replace (length (firstn 8 seq)) with 8%nat in E by (rewrite firstn_length; lia).
    rewrite E. symmetry. apply firstn_skipn.
  - cbn [iter_inc]. rewrite IH.
    set (v := of_le (firstn 8 seq) + N.of_nat n).
    assert (Hs : Forall is_byte (skipn 8 seq)).
    { rewrite <- (firstn_skipn 8 seq) in Hb. apply Forall_app in Hb. tauto. }
    destruct (inc_seq_spec (le 8 v ++ skipn 8 seq)) as [E _].
    + apply Forall_app. split; auto using le_bytes.
    + rewrite app_length, le_length. lia.
    + rewrite E.
      pose proof (firstn_app_exact (le 8 v) (skipn 8 seq)) as E1. rewrite le_length in E1. rewrite E1.
      pose proof (skipn_app_exact (le 8 v) (skipn 8 seq)) as E2. rewrite le_length in E2. rewrite E2.
      f_equal. rewrite of_le_le. change (256 ^ N.of_nat 8) with (256 ^ 8).
      rewrite <- le_mod. change (256 ^ N.of_nat 8) with (256 ^ 8).
      rewrite N.add_mod_idemp_l by discriminate. rewrite le_mod. f_equal. subst v. lia.
Qed.

Lemma inc_nonce_at i : inc_seq (nonce_at i) = nonce_at (i + 1).
Proof.
  unfold nonce_at. destruct (inc_seq_spec (le 8 i ++ repeat 0 16)) as [E _].
  - apply Forall_app. split; auto using le_bytes. repeat constructor.
  - rewrite app_length, le_length. lia.
  - rewrite E. pose proof (firstn_app_exact (le 8 i) (repeat 0 16)) as E1. rewrite le_length in E1. rewrite E1.
    pose proof (skipn_app_exact (le 8 i) (repeat 0 16)) as E2. rewrite le_length in E2. rewrite E2.
    f_equal. rewrite of_le_le, <- le_mod, N.add_mod_idemp_l by discriminate. apply le_mod.
Qed.

Lemma nonce_at_inj i j : i < 2 ^ 64 -> j < 2 ^ 64 -> nonce_at i = nonce_at j -> i = j.
Proof.
  intros Hi Hj E. unfold nonce_at in E.
  assert (E' : le 8 i = le 8 j).
  { pose proof (f_equal (firstn 8) E) as F.
    pose proof (firstn_app_exact (le 8 i) (repeat 0 16)) as E1. rewrite le_length in E1.
    pose proof (firstn_app_exact (le 8 j) (repeat 0 16)) as E2. rewrite le_length in E2.
    now rewrite E1, E2 in F. }
  apply le_inj in E'. change (256 ^ N.of_nat 8) with (2 ^ 64) in E'.
  now rewrite !N.mod_small in E' by auto.
Qed.

(** * Reading and writing *)

Section Crypto.
Variable seal : bytes -> bytes -> bytes -> bytes.
Variable unseal : bytes -> bytes -> bytes -> option bytes.
Hypothesis box : forall k n m, unseal k n (seal k n m) = Some m.
Hypothesis seal_length : forall k n m, length (seal k n m) = (length m + 16)%nat.

(** A box as it appears on the wire. *)
Definition frame (k : bytes) (i : N) (m : bytes) : bytes := enc xopaque (seal k (nonce_at i) m).

(** A message fits a size limit (the limits are uint64 settings; the XDR library
    itself refuses boxes of 2 GB). *)
Definition fits (max : N) (m : bytes) : Prop := N.of_nat (length m) + 16 <= max.

Lemma pad_len_le n : pad_len n <= 3.
Proof. unfold pad_len. pose proof (N.mod_lt (4 - n mod 4) 4). lia. Qed.

Definition at_seq (s : chan) (w r : N) : Prop := wseq s = nonce_at w /\ rseq s = nonce_at r.

Lemma write_fits s k m w r : at_seq s w r -> fits (maxsize s) m ->
  write_key seal s k m = (mkChan (nonce_at (w + 1)) (nonce_at r) (maxsize s), Ok (frame k w m)).
Proof.
  intros [Hw Hr] Hf. unfold write_key. rewrite Hw, Hr, inc_nonce_at. unfold fits in Hf.
  rewrite seal_length. destruct (N.ltb_spec (maxsize s) (N.of_nat (length m + 16))); [lia|reflexivity].
Qed.

Lemma write_too_big s k m w r : at_seq s w r -> ~ fits (maxsize s) m ->
  write_key seal s k m = (mkChan (nonce_at (w + 1)) (nonce_at r) (maxsize s), Err ErrOverflow).
Proof.
  intros [Hw Hr] Hf. unfold write_key. rewrite Hw, Hr, inc_nonce_at. unfold fits in Hf.
  rewrite seal_length. destruct (N.ltb_spec (maxsize s) (N.of_nat (length m + 16))); [reflexivity|lia].
Qed.

Lemma dec_frame max k i m rest : fits max m -> N.of_nat (length m) <= 2 ^ 31 - 20 ->
  dec xopaque max (frame k i m ++ rest) = Some (seal k (nonce_at i) m, rest).
Proof.
  intros Hf Hs. destruct good_opaque as (R & _). apply R. unfold str_ok. cbv zeta.
  rewrite seal_length. unfold fits in Hf. pose proof (pad_len_le (N.of_nat (length m + 16))).
  unfold max_int32. split; [|right]; lia.
Qed.

Lemma read_frame s k m rest w r : at_seq s w r -> fits (maxsize s) m ->
  N.of_nat (length m) <= 2 ^ 31 - 20 ->
  read_key unseal s k (frame k r m ++ rest) =
  (mkChan (nonce_at w) (nonce_at (r + 1)) (maxsize s), Ok (m, rest)).
Proof.
  intros [Hw Hr] Hf Hs. unfold read_key. rewrite dec_frame by auto.
  rewrite Hw, Hr, inc_nonce_at, box. reflexivity.
Qed.

Lemma at_seq_mk w r max : at_seq (mkChan (nonce_at w) (nonce_at r) max) w r.
Proof. split; reflexivity. Qed.

(** ** A series of messages *)

(** The messages of a series that are sent, each with its number: those that fit. *)
Fixpoint sent (max i : N) (msgs : list bytes) : list (N * bytes) :=
  match msgs with
  | [] => []
  | m :: ms => if (N.of_nat (length m) + 16 <=? max) then (i, m) :: sent max (i + 1) ms
               else sent max (i + 1) ms
  end.

(** The bytes put on the wire. *)
Definition wire (rs : list (res error bytes)) : bytes :=
  concat (map (fun r => match r with Ok b => b | _ => [] end) rs).

Lemma write_all_wire k msgs : forall s w r, at_seq s w r ->
  snd (write_all seal s k msgs) =
  map (fun im => if (N.of_nat (length (snd im)) + 16 <=? maxsize s) then Ok (frame k (fst im) (snd im)) else Err ErrOverflow)
      (combine (map (fun j => w + N.of_nat j) (seq 0 (length msgs))) msgs).
Proof.
  induction msgs as [|m ms IH]; intros s w r Hs; [reflexivity|].
  cbn [write_all length seq map combine fst snd].
  destruct (N.leb_spec (N.of_nat (length m) + 16) (maxsize s)) as [Hf|Hf].
  - rewrite (write_fits _ _ _ _ _ Hs Hf).
    specialize (IH (mkChan (nonce_at (w + 1)) (nonce_at r) (maxsize s)) (w + 1) r (at_seq_mk _ _ _)).
    destruct (write_all seal _ k ms) as [s2 rs]. cbn [snd maxsize] in *. rewrite IH.
    rewrite N.add_0_r. f_equal. rewrite <- seq_shift, map_map.
    f_equal. f_equal. apply map_ext. intros a. lia.
  - rewrite (write_too_big _ _ _ _ _ Hs) by (unfold fits; lia).
    specialize (IH (mkChan (nonce_at (w + 1)) (nonce_at r) (maxsize s)) (w + 1) r (at_seq_mk _ _ _)).
    destruct (write_all seal _ k ms) as [s2 rs]. cbn [snd maxsize] in *. rewrite IH.
    f_equal. rewrite <- seq_shift, map_map.
    f_equal. f_equal. apply map_ext. intros a. lia.
Qed.

Lemma write_all_seq k msgs : forall s w r, at_seq s w r ->
  at_seq (fst (write_all seal s k msgs)) (w + N.of_nat (length msgs)) r /\
  maxsize (fst (write_all seal s k msgs)) = maxsize s.
Proof.
  induction msgs as [|m ms IH]; intros s w r Hs.
  - cbn. now rewrite N.add_0_r.
  - cbn [write_all length].
    assert (E : exists o, write_key seal s k m = (mkChan (nonce_at (w + 1)) (nonce_at r) (maxsize s), o)).
    { destruct (N.leb_spec (N.of_nat (length m) + 16) (maxsize s)) as [Hf|Hf].
      - eexists. apply write_fits; auto.
      - eexists. apply write_too_big; auto. unfold fits; lia. }
    destruct E as [o ->].
    specialize (IH (mkChan (nonce_at (w + 1)) (nonce_at r) (maxsize s)) (w + 1) r (at_seq_mk _ _ _)).
    destruct (write_all seal _ k ms) as [s2 rs]. cbn [fst maxsize] in *. destruct IH as [IH1 IH2].
    split; auto. replace (w + N.of_nat (S (length ms))) with (w + 1 + N.of_nat (length ms)) by lia. exact IH1.
Qed.

(** *** Undisturbed delivery *)

Lemma deliver_all k maxr msgs : forall sw sr w r w', at_seq sw w r -> at_seq sr w' w ->
  Forall (fits (maxsize sw)) msgs -> maxsize sw <= maxsize sr -> maxsize sr = maxr ->
  Forall (fun m => N.of_nat (length m) <= 2 ^ 31 - 20) msgs ->
  read_until_error unseal (length msgs) sr k (wire (snd (write_all seal sw k msgs))) = msgs.
Proof.
  induction msgs as [|m ms IH]; intros sw sr w r w' Hw Hr Hf Hm Hmr Hl; [reflexivity|].
  inversion Hf as [|? ? Hfm Hfms]; subst. inversion Hl as [|? ? Hlm Hlms]; subst.
  cbn [write_all]. rewrite (write_fits _ _ _ _ _ Hw Hfm).
  specialize (IH (mkChan (nonce_at (w + 1)) (nonce_at r) (maxsize sw))
                 (mkChan (nonce_at w') (nonce_at (w + 1)) (maxsize sr)) (w + 1) r w'
                 (at_seq_mk _ _ _) (at_seq_mk _ _ _) Hfms Hm eq_refl Hlms).
  destruct (write_all seal _ k ms) as [s2 rs]. cbn [snd] in *.
  unfold wire. cbn [map concat length read_until_error].
  rewrite (read_frame sr k m _ w' w Hr) by (unfold fits in *; auto; lia). f_equal. exact IH.
Qed.

(** *** An attacker on the wire *)

(** The boxes a reader finds in a stream. *)
Fixpoint boxes (n : nat) (max : N) (stream : bytes) : list bytes :=
  match n with
  | O => []
  | S n' => match dec xopaque max stream with
            | Some (b, rest) => b :: boxes n' max rest
            | None => []
            end
  end.

(** Nothing in the stream opens under the key except what was sent under it. *)
Definition no_forgery (k : bytes) (sealed : list (N * bytes)) (bxs : list bytes) : Prop :=
  forall b n m, In b bxs -> unseal k n b = Some m ->
    exists i, n = nonce_at i /\ In (i, m) sealed.

Lemma sent_bounds max msgs : forall i j m, In (j, m) (sent max i msgs) ->
  i <= j /\ j < i + N.of_nat (length msgs).
Proof using. clear box seal_length seal unseal.
  induction msgs as [|x ms IH]; intros i j m H; cbn [sent] in H; [destruct H|].
  cbn [length]. destruct (N.of_nat (length x) + 16 <=? max).
  - destruct H as [H|H]; [injection H as <- <-; lia|]. apply IH in H. lia.
  - apply IH in H. lia.
Qed.

Lemma sent_app max a : forall i b, sent max i (a ++ b) = sent max i a ++ sent max (i + N.of_nat (length a)) b.
Proof using. clear box seal_length seal unseal.
  induction a as [|x a IH]; intros i b; cbn [app sent length].
  - now rewrite N.add_0_r.
  - rewrite !IH. replace (i + N.of_nat (S (length a))) with (i + 1 + N.of_nat (length a)) by lia.
    now destruct (N.of_nat (length x) + 16 <=? max).
Qed.

Lemma sent_at max i before msgs m :
  In (i + N.of_nat (length before), m) (sent max i (before ++ msgs)) ->
  exists ms, msgs = m :: ms /\ (N.of_nat (length m) + 16 <=? max) = true.
Proof using. clear box seal_length seal unseal.
  rewrite sent_app. intros H. apply in_app_iff in H. destruct H as [H|H].
  - apply sent_bounds in H. lia.
  - destruct msgs as [|x ms]; cbn [sent] in H; [destruct H|].
    destruct (N.of_nat (length x) + 16 <=? max) eqn:E.
    + destruct H as [H|H]; [|apply sent_bounds in H; lia]. injection H as <-. eauto.
    + apply sent_bounds in H. lia.
Qed.

Lemma reads_prefix k smax i0 all n : i0 + N.of_nat (length all) < 2 ^ 64 ->
  forall s stream w before msgs,
  all = before ++ msgs -> at_seq s w (i0 + N.of_nat (length before)) ->
  no_forgery k (sent smax i0 all) (boxes n (maxsize s) stream) ->
  exists later, msgs = read_until_error unseal n s k stream ++ later /\
    Forall (fits smax) (read_until_error unseal n s k stream).
Proof using unseal. clear box seal_length seal.
  intros Hall. induction n as [|n IH]; intros s stream w before msgs Eall Hs Hno.
  - exists msgs. split; auto. constructor.
  - cbn [read_until_error]. unfold read_key. cbn [boxes] in Hno.
    destruct (dec xopaque (maxsize s) stream) as [[b rest]|] eqn:Ed; [|exists msgs; split; auto; constructor].
    destruct Hs as [Hsw Hsr]. rewrite Hsr, Hsw.
    destruct (unseal k (nonce_at (i0 + N.of_nat (length before))) b) as [m|] eqn:Eu;
      [|exists msgs; split; auto; constructor].
    destruct (Hno b _ m (or_introl eq_refl) Eu) as (i' & Ei & Hin).
    pose proof (sent_bounds _ _ _ _ _ Hin) as Hb.
    rewrite Eall in Hall, Hb. rewrite app_length in Hall, Hb.
    apply nonce_at_inj in Ei; [|lia|lia]. subst i'. rewrite Eall in Hin.
    apply sent_at in Hin. destruct Hin as (ms & -> & Hfit).
    destruct (IH (mkChan (nonce_at w) (nonce_at (i0 + N.of_nat (length before) + 1)) (maxsize s)) rest w (before ++ [m]) ms)
      as (later & E & F).
    + rewrite <- app_assoc. exact Eall.
    + rewrite app_length. cbn [length].
      replace (i0 + N.of_nat (length before + 1)) with (i0 + N.of_nat (length before) + 1) by lia.
      apply at_seq_mk.
    + intros b' n' m' Hin' E'. apply (Hno b' n' m'); [now right|auto].
    + rewrite inc_nonce_at. exists later. split.
      * cbn [app]. now rewrite <- E.
      * constructor; auto. unfold fits. apply N.leb_le in Hfit. exact Hfit.
Qed.

(** *** After a refused write *)

Lemma out_of_step_fails s k m rest w r j :
  (forall k n n' m', n <> n' -> unseal k n (seal k n' m') = None) ->
  at_seq s w r -> j <> r -> j < 2 ^ 64 -> r < 2 ^ 64 -> fits (maxsize s) m ->
  N.of_nat (length m) <= 2 ^ 31 - 20 ->
  snd (read_key unseal s k (frame k j m ++ rest)) = Err ErrDecrypt.
Proof.
  intros Hn [Hw Hr] Hj Hj64 Hr64 Hf Hl. unfold read_key. rewrite dec_frame by auto.
  rewrite Hr, Hn; [reflexivity|]. intros E. apply nonce_at_inj in E; auto.
Qed.

Lemma other_key_fails s k k' j m rest :
  (forall k k' n n' m', k <> k' -> unseal k n (seal k' n' m') = None) ->
  k <> k' -> fits (maxsize s) m -> N.of_nat (length m) <= 2 ^ 31 - 20 ->
  snd (read_key unseal s k (frame k' j m ++ rest)) = Err ErrDecrypt.
Proof.
  intros Hk Hne Hf Hl. unfold read_key. rewrite dec_frame by auto.
  now rewrite (Hk k k').
Qed.

(** * Key exchange *)

Variable encap : bytes -> bytes -> bytes * bytes.
Variable decap : bytes -> bytes -> option bytes.
Variable hmac : bytes -> bytes -> bytes.
Variable sha512 : bytes -> bytes.
Variable keypair : bytes -> bytes -> Prop.
Hypothesis kem : forall coins pk sk, keypair pk sk ->
  decap sk (fst (encap coins pk)) = Some (snd (encap coins pk)).
Hypothesis cipher_length : forall coins pk, length (fst (encap coins pk)) = 1047%nat.
Hypothesis hmac_length : forall k m, length (hmac k m) = 32%nat.

Lemma gen_and_send_enc s coins pk ek w r : at_seq s w r -> 1234 <= maxsize s ->
  gen_and_send seal encap s coins pk (Some ek) =
  (mkChan (nonce_at (w + 1)) (nonce_at r) (maxsize s),
   Ok (snd (encap coins pk), frame ek w (fst (encap coins pk)))).
Proof.
  intros Hs Hm. unfold gen_and_send. pose proof (cipher_length coins pk) as Hc.
  destruct (encap coins pk) as [c k] eqn:E. cbn [fst snd] in *.
  rewrite (write_fits _ _ _ _ _ Hs) by (unfold fits; lia). reflexivity.
Qed.

Lemma recv_cipher_enc s coins pk sk ek rest w r : keypair pk sk -> at_seq s w r -> 1234 <= maxsize s ->
  recv_cipher unseal decap s sk (Some ek) (frame ek r (fst (encap coins pk)) ++ rest) =
  (mkChan (nonce_at w) (nonce_at (r + 1)) (maxsize s), Ok (snd (encap coins pk), rest)).
Proof.
  intros Hk Hs Hm. unfold recv_cipher. pose proof (cipher_length coins pk) as Hc.
  rewrite (read_frame _ _ _ _ _ _ Hs) by (unfold fits; lia).
  rewrite Hc. change (N.of_nat 1047 =? 1047) with true. cbv iota. now rewrite kem.
Qed.

Lemma recv_identity_enc s ek pk rest w r : length pk = 1218%nat -> at_seq s w r -> 1234 <= maxsize s ->
  recv_identity unseal s ek (frame ek r pk ++ rest) =
  (mkChan (nonce_at w) (nonce_at (r + 1)) (maxsize s), Ok (pk, rest)).
Proof.
  intros Hl Hs Hm. unfold recv_identity.
  rewrite (read_frame _ _ _ _ _ _ Hs) by (unfold fits; lia). cbn [bind fst].
  rewrite Hl. reflexivity.
Qed.

Lemma send_proof_enc s mk ek parts w r : at_seq s w r -> 1234 <= maxsize s ->
  send_proof seal hmac s mk ek parts =
  (mkChan (nonce_at (w + 1)) (nonce_at r) (maxsize s),
   Ok (hmac mk (concat parts), frame ek w (hmac mk (concat parts)))).
Proof.
  intros Hs Hm. unfold send_proof. pose proof (hmac_length mk (concat parts)) as Hh.
  rewrite (write_fits _ _ _ _ _ Hs) by (unfold fits; lia). reflexivity.
Qed.

Lemma recv_proof_enc s mk ek parts rest w r : at_seq s w r -> 1234 <= maxsize s ->
  recv_proof unseal hmac s mk ek parts (frame ek r (hmac mk (concat parts)) ++ rest) =
  (mkChan (nonce_at w) (nonce_at (r + 1)) (maxsize s), Ok (hmac mk (concat parts), rest)).
Proof.
  intros Hs Hm. unfold recv_proof. pose proof (hmac_length mk (concat parts)) as Hh.
  rewrite (read_frame _ _ _ _ _ _ Hs) by (unfold fits; lia). cbn [bind fst snd].
  rewrite Hh, eqb_refl. reflexivity.
Qed.

(** The whole undisturbed run. *)
Section Run.
Variables (max_i max_r : N) (pk_i sk_i pk_r sk_r e_pk e_sk epk esk : bytes)
          (coins1 coins2 coins3 coins4 : bytes).
Hypothesis Hmi : 1234 <= max_i.
Hypothesis Hmr : 1234 <= max_r.
Hypothesis Kr : keypair pk_r sk_r.
Hypothesis Ki : keypair pk_i sk_i.
Hypothesis Ke : keypair e_pk e_sk.
Hypothesis Kre : keypair epk esk.
Hypothesis Li : length pk_i = 1218%nat.
Hypothesis Le : length e_pk = 1218%nat.
Hypothesis Lre : length epk = 1218%nat.

Let c1 := fst (encap coins1 pk_r).  Let k1 := snd (encap coins1 pk_r).
Let c2 := fst (encap coins2 e_pk).  Let k2 := snd (encap coins2 e_pk).
Let c3 := fst (encap coins3 epk).   Let k3 := snd (encap coins3 epk).
Let c4 := fst (encap coins4 pk_i).  Let k4 := snd (encap coins4 pk_i).
Let sp := hmac k1 (e_pk ++ epk).
Let cp := hmac k2 (sp ++ pk_i).
Let fp := hmac k3 (cp ++ pk_r).

Definition seqs (w r max : N) : chan := mkChan (nonce_at w) (nonce_at r) max.

Lemma run1 : initiate1 seal encap (chan0 max_i) pk_r e_pk coins1 =
  (seqs 1 0 max_i, Ok (k1, enc_fixed c1 ++ frame k1 0 e_pk)).
Proof.
  unfold initiate1, gen_and_send, k1, c1. destruct (encap coins1 pk_r) as [c k]. cbn [bind fst snd].
  rewrite (write_fits (chan0 max_i) k e_pk 0 0).
  - reflexivity.
  - split; reflexivity.
  - unfold fits. cbn [maxsize chan0]. lia.
Qed.

Lemma run2 rest : respond1 seal unseal encap decap hmac (chan0 max_r) sk_r epk coins2
    ((enc_fixed c1 ++ frame k1 0 e_pk) ++ rest) =
  (seqs 3 1 max_r, Ok (mkRespMid k1 k2 sp, frame k1 0 c2 ++ frame k2 1 epk ++ frame k2 2 sp, rest)).
Proof.
  unfold respond1. rewrite <- app_assoc.
  assert (E1 : recv_cipher unseal decap (chan0 max_r) sk_r None (enc_fixed c1 ++ frame k1 0 e_pk ++ rest) =
               (chan0 max_r, Ok (k1, frame k1 0 e_pk ++ rest))).
  { unfold recv_cipher. cbn [dec xfixed].
    replace 1047 with (N.of_nat (length c1)) by (unfold c1; rewrite cipher_length; reflexivity).
    rewrite dec_fixed_enc.
    - unfold c1. rewrite kem by auto. reflexivity.
    - unfold c1. rewrite cipher_length. vm_compute. congruence. }
  rewrite E1. cbn [bind].
  rewrite (recv_identity_enc (chan0 max_r) k1 e_pk rest 0 0) by (auto; split; reflexivity). cbn [bind].
  rewrite (gen_and_send_enc _ coins2 e_pk k1 0 1 (at_seq_mk _ _ _)) by (cbn [maxsize chan0 seqs]; auto). cbn [bind].
  rewrite (write_fits _ _ epk 1 1 (at_seq_mk _ _ _)) by (unfold fits; cbn [maxsize chan0 seqs]; lia). cbn [bind].
  rewrite (send_proof_enc _ k1 _ [e_pk; epk] 2 1 (at_seq_mk _ _ _)) by (cbn [maxsize chan0 seqs]; auto). cbn [bind concat].
  rewrite app_nil_r. reflexivity.
Qed.

Lemma run3 rest : initiate2 seal unseal encap decap hmac (seqs 1 0 max_i) pk_i e_pk e_sk k1 coins3
    ((frame k1 0 c2 ++ frame k2 1 epk ++ frame k2 2 sp) ++ rest) =
  (seqs 4 3 max_i, Ok (mkInitMid k2 k3 cp, frame k2 1 c3 ++ frame k3 2 pk_i ++ frame k3 3 cp, rest)).
Proof.
  unfold initiate2, seqs. rewrite <- !app_assoc.
  unfold c2 at 1. rewrite (recv_cipher_enc _ coins2 e_pk e_sk k1 _ 1 0 Ke (at_seq_mk _ _ _)) by (cbn [maxsize chan0 seqs]; auto).
  cbn [bind]. fold k2.
  rewrite (recv_identity_enc _ k2 epk _ 1 1 Lre (at_seq_mk _ _ _)) by (cbn [maxsize chan0 seqs]; auto). cbn [bind].
  unfold sp at 1. replace (e_pk ++ epk) with (concat [e_pk; epk]) by (cbn [concat]; now rewrite app_nil_r).
  rewrite (recv_proof_enc _ k1 k2 [e_pk; epk] rest 1 2 (at_seq_mk _ _ _)) by (cbn [maxsize chan0 seqs]; auto). cbn [bind].
  rewrite (gen_and_send_enc _ coins3 epk k2 1 3 (at_seq_mk _ _ _)) by (cbn [maxsize chan0 seqs]; auto). cbn [bind].
  rewrite (write_fits _ _ pk_i 2 3 (at_seq_mk _ _ _)) by (unfold fits; cbn [maxsize chan0 seqs]; lia). cbn [bind].
  rewrite (send_proof_enc _ k2 _ _ 3 3 (at_seq_mk _ _ _)) by (cbn [maxsize chan0 seqs]; auto). cbn [bind concat].
  rewrite !app_nil_r. reflexivity.
Qed.

Lemma run4 rest : respond2 seal unseal encap decap hmac sha512 (seqs 3 1 max_r) pk_r esk coins4 (mkRespMid k1 k2 sp)
    ((frame k2 1 c3 ++ frame k3 2 pk_i ++ frame k3 3 cp) ++ rest) =
  (seqs 5 4 max_r,
   Ok (snd (derive_keys sha512 [k1; k2; k3; k4]), fst (derive_keys sha512 [k1; k2; k3; k4]), pk_i,
       frame k3 3 c4 ++ frame k4 4 fp, rest)).
Proof.
  unfold respond2, seqs. rewrite <- !app_assoc. cbn [r_k1 r_k2 r_sp].
  unfold c3 at 1. rewrite (recv_cipher_enc _ coins3 epk esk k2 _ 3 1 Kre (at_seq_mk _ _ _)) by (cbn [maxsize chan0 seqs]; auto).
  cbn [bind]. fold k3.
  rewrite (recv_identity_enc _ k3 pk_i _ 3 2 Li (at_seq_mk _ _ _)) by (cbn [maxsize chan0 seqs]; auto). cbn [bind].
  unfold cp at 1. replace (sp ++ pk_i) with (concat [sp; pk_i]) by (cbn [concat]; now rewrite app_nil_r).
  rewrite (recv_proof_enc _ k2 k3 [sp; pk_i] rest 3 3 (at_seq_mk _ _ _)) by (cbn [maxsize chan0 seqs]; auto). cbn [bind].
  rewrite (gen_and_send_enc _ coins4 pk_i k3 3 4 (at_seq_mk _ _ _)) by (cbn [maxsize chan0 seqs]; auto). cbn [bind].
  rewrite (send_proof_enc _ k3 _ _ 4 4 (at_seq_mk _ _ _)) by (cbn [maxsize chan0 seqs]; auto). cbn [bind concat].
  rewrite !app_nil_r. fold k4.
  destruct (derive_keys sha512 [k1; k2; k3; k4]) as [wk rk]. reflexivity.
Qed.

Lemma run5 rest : initiate3 unseal decap hmac sha512 (seqs 4 3 max_i) sk_i pk_r k1 (mkInitMid k2 k3 cp)
    ((frame k3 3 c4 ++ frame k4 4 fp) ++ rest) =
  (seqs 4 5 max_i,
   Ok (fst (derive_keys sha512 [k1; k2; k3; k4]), snd (derive_keys sha512 [k1; k2; k3; k4]), rest)).
Proof.
  unfold initiate3, seqs. rewrite <- !app_assoc. cbn [i_k2 i_k3 i_cp].
  unfold c4 at 1. rewrite (recv_cipher_enc _ coins4 pk_i sk_i k3 _ 4 3 Ki (at_seq_mk _ _ _)) by (cbn [maxsize chan0 seqs]; auto).
  cbn [bind]. fold k4.
  unfold fp at 1. replace (cp ++ pk_r) with (concat [cp; pk_r]) by (cbn [concat]; now rewrite app_nil_r).
  rewrite (recv_proof_enc _ k3 k4 [cp; pk_r] rest 4 4 (at_seq_mk _ _ _)) by (cbn [maxsize chan0 seqs]; auto). cbn [bind].
  destruct (derive_keys sha512 [k1; k2; k3; k4]) as [rk wk]. reflexivity.
Qed.
End Run.
End Crypto.

(** Makes the received bytes of a step of the form [bytes ++ []]. *)
Ltac add_nil := match goal with |- _ ?st = _ => rewrite <- (app_nil_r st) end.

(** * Statements in the form used by SessionProps.v *)

Lemma deliver_bytes seal unseal
  (B1 : forall k n m, unseal k n (seal k n m) = Some m)
  (B2 : forall k n m, length (seal k n m) = (length m + 16)%nat)
  key max_w max_r i : forall w r msgs,
  max_w <= max_r -> Forall (fits max_w) msgs ->
  Forall (fun m => N.of_nat (length m) <= 2 ^ 31 - 20) msgs ->
  read_until_error unseal (length msgs) (mkChan w (nonce_at i) max_r) key
    (wire (snd (write_all seal (mkChan (nonce_at i) r max_w) key msgs))) = msgs.
Proof.
  intros w r msgs. revert i. induction msgs as [|m ms IH]; intros i Hm Hf Hl; [reflexivity|].
  inversion Hf as [|? ? Hfm Hfms]; subst. inversion Hl as [|? ? Hlm Hlms]; subst.
  cbn [write_all]. unfold write_key at 1. cbn [wseq rseq maxsize]. rewrite B2.
  unfold fits in Hfm. destruct (N.ltb_spec max_w (N.of_nat (length m + 16))); [lia|].
  rewrite inc_nonce_at. specialize (IH (i + 1) Hm Hfms Hlms).
  destruct (write_all seal _ key ms) as [s2 rs]. cbn [snd] in *.
  unfold wire. cbn [map concat length read_until_error].
  unfold read_key. cbn [wseq rseq maxsize].
  change (enc xopaque (seal key (nonce_at i) m)) with (frame seal key i m).
  rewrite (dec_frame seal unseal B1 B2) by (unfold fits; auto; lia).
  rewrite B1, inc_nonce_at. f_equal. exact IH.
Qed.

Lemma reads_prefix_bytes unseal key max_w max_r i w msgs stream n :
  i + N.of_nat (length msgs) < 2 ^ 64 ->
  no_forgery unseal key (sent max_w i msgs) (boxes n max_r stream) ->
  exists later,
    msgs = read_until_error unseal n (mkChan w (nonce_at i) max_r) key stream ++ later /\
    Forall (fits max_w) (read_until_error unseal n (mkChan w (nonce_at i) max_r) key stream).
Proof.
  intros Hl Hno.
  assert (H : forall w', read_until_error unseal n (mkChan w (nonce_at i) max_r) key stream =
                         read_until_error unseal n (mkChan w' (nonce_at i) max_r) key stream).
  { clear. generalize (nonce_at i). intros r w'. revert stream r. induction n as [|n IH]; intros stream r; [reflexivity|].
    cbn [read_until_error]. unfold read_key. cbn [wseq rseq maxsize].
    destruct (dec xopaque max_r stream) as [[b rest]|]; auto.
    destruct (unseal key r b); auto. f_equal. apply IH. }
  rewrite (H (nonce_at 0)).
  apply (reads_prefix unseal key max_w i msgs n Hl (mkChan (nonce_at 0) (nonce_at i) max_r) stream 0 [] msgs);
    auto. cbn [length]. rewrite N.add_0_r. apply at_seq_mk.
Qed.

Lemma nonces seq : length seq = 24%nat -> Forall is_byte seq ->
  (forall n, of_le (firstn 8 (iter_inc n seq)) = (of_le (firstn 8 seq) + N.of_nat n) mod 2 ^ 64 /\
             skipn 8 (iter_inc n seq) = skipn 8 seq) /\
  (forall i j, N.of_nat i < 2 ^ 64 -> N.of_nat j < 2 ^ 64 -> iter_inc i seq = iter_inc j seq -> i = j) /\
  (forall n, N.of_nat n = 2 ^ 64 -> iter_inc n seq = seq).
Proof.
  intros Hl Hb.
  assert (H1 : forall n, of_le (firstn 8 (iter_inc n seq)) = (of_le (firstn 8 seq) + N.of_nat n) mod 2 ^ 64 /\
             skipn 8 (iter_inc n seq) = skipn 8 seq).
  { intros n. rewrite (iter_inc_spec n seq Hb) by lia.
    set (v := of_le (firstn 8 seq) + N.of_nat n).
    pose proof (firstn_app_exact (le 8 v) (skipn 8 seq)) as E1. rewrite le_length in E1. rewrite E1.
    pose proof (skipn_app_exact (le 8 v) (skipn 8 seq)) as E2. rewrite le_length in E2. rewrite E2.
    split; auto. rewrite of_le_le. reflexivity. }
  split; [exact H1|]. 
  assert (Hf : of_le (firstn 8 seq) < 2 ^ 64).
  { assert (Hf : Forall is_byte (firstn 8 seq)).
    { rewrite <- (firstn_skipn 8 seq) in Hb. apply Forall_app in Hb. tauto. }
    pose proof (of_le_lt _ Hf) as H. rewrite firstn_length in H.
    replace (Nat.min 8 (length seq)) with 8%nat in H by lia. exact H. }
  split.
  - intros i j Hi Hj E. destruct (H1 i) as [Ei _], (H1 j) as [Ej _]. rewrite E in Ei. rewrite Ei in Ej.
    set (v := of_le (firstn 8 seq)) in *.
    assert (Hmod : forall a, a < 2 ^ 64 -> (v + a) mod 2 ^ 64 = if v + a <? 2 ^ 64 then v + a else v + a - 2 ^ 64).
    { intros a Ha. destruct (N.ltb_spec (v + a) (2 ^ 64)); [now apply N.mod_small|].
      symmetry. apply (N.mod_unique _ _ 1); lia. }
    rewrite !Hmod in Ej by auto.
    destruct (N.ltb_spec (v + N.of_nat i) (2 ^ 64)), (N.ltb_spec (v + N.of_nat j) (2 ^ 64)); lia.
  - intros n Hn. rewrite (iter_inc_spec n seq Hb) by lia. rewrite Hn.
    rewrite <- le_mod. change (256 ^ N.of_nat 8) with (2 ^ 64).
    replace (of_le (firstn 8 seq) + 2 ^ 64) with (of_le (firstn 8 seq) + 1 * 2 ^ 64) by lia.
    rewrite N.mod_add by discriminate. rewrite N.mod_small by auto.
    pose proof (iter_inc_spec 0 seq Hb ltac:(lia)) as E. cbn [iter_inc] in E.
    change (N.of_nat 0) with 0 in E. rewrite N.add_0_r in E. now rewrite <- E.
Qed.

Lemma only_three (k1 k2 k3 k4 : bytes) : NoDup [k1; k2; k3; k4] ->
  let used_i := [(k1, 0); (k2, 1); (k3, 2); (k3, 3)] in
  let used_r := [(k1, 0); (k2, 1); (k2, 2); (k3, 3); (k4, 4)] in
  NoDup used_i /\ NoDup used_r /\
  forall p, In p used_i -> In p used_r -> p = (k1, 0) \/ p = (k2, 1) \/ p = (k3, 3).
Proof.
  intros H. cbv zeta.
  inversion H as [|? ? N1 H']; subst. inversion H' as [|? ? N2 H'']; subst.
  inversion H'' as [|? ? N3 _]; subst. cbn [In] in *.
  split; [|split].
  - repeat (constructor; [cbn [In]; intros X; repeat destruct X as [X|X]; try (injection X; intros; subst; tauto || discriminate); auto|]). constructor.
  - repeat (constructor; [cbn [In]; intros X; repeat destruct X as [X|X]; try (injection X; intros; subst; tauto || discriminate); auto|]). constructor.
  - intros p Hi Hr. cbn [In] in *.
    repeat destruct Hi as [<-|Hi]; auto; [|destruct Hi].
    repeat destruct Hr as [X|Hr]; try discriminate; auto; try (injection X; intros; subst; tauto); destruct Hr.
Qed.

Lemma boundary seal unseal :
  (forall k n m, unseal k n (seal k n m) = Some m) /\
  (forall k n m, length (seal k n m) = (length m + 16)%nat) ->
  forall key max i w r m, max <= 2 ^ 31 - 4 ->
  (N.of_nat (length m) + 16 <= max <->
     exists out s', write_key seal (mkChan (nonce_at i) r max) key m = (s', Ok out)) /\
  (N.of_nat (length m) + 16 <= max ->
     read_key unseal (mkChan w (nonce_at i) max) key (wire [snd (write_key seal (mkChan (nonce_at i) r max) key m)])
     = (mkChan w (nonce_at (i + 1)) max, Ok (m, []))).
Proof.
  intros [B1 B2] key max i w r m Hmax. unfold write_key. cbn [wseq rseq maxsize]. rewrite B2.
  destruct (N.ltb_spec max (N.of_nat (length m + 16))) as [H|H].
  - split; [|lia]. split; [lia|]. intros (out & s' & E). discriminate.
  - split.
    + split; [eauto|lia].
    + intros _. unfold wire. cbn [map concat snd]. rewrite app_nil_r.
      unfold read_key. cbn [wseq rseq maxsize].
      change (enc xopaque (seal key (nonce_at i) m)) with (frame seal key i m).
      rewrite <- (app_nil_r (frame seal key i m)).
      rewrite (dec_frame seal unseal B1 B2) by (unfold fits; lia).
      now rewrite B1, inc_nonce_at.
Qed.

Lemma overflow_desync seal unseal :
  (forall k n m, unseal k n (seal k n m) = Some m) /\
  (forall k n m, length (seal k n m) = (length m + 16)%nat) ->
  (forall k n n' m, n <> n' -> unseal k n (seal k n' m) = None) ->
  forall key max i w r big m, i + 1 < 2 ^ 64 -> max <= 2 ^ 31 - 4 ->
  max < N.of_nat (length big) + 16 -> N.of_nat (length m) + 16 <= max ->
  let '(s1, r1) := write_key seal (mkChan (nonce_at i) r max) key big in
  let '(s2, r2) := write_key seal s1 key m in
  r1 = Err ErrOverflow /\ (exists out, r2 = Ok out) /\
  snd (read_key unseal (mkChan w (nonce_at i) max) key (wire [r1; r2])) = Err ErrDecrypt.
Proof.
  intros [B1 B2] Hn key max i w r big m Hi Hmax Hbig Hm. unfold write_key. cbn [wseq rseq maxsize]. rewrite !B2.
  destruct (N.ltb_spec max (N.of_nat (length big + 16))) as [H|H]; [|lia].
  cbn [wseq rseq maxsize]. rewrite inc_nonce_at, B2.
  destruct (N.ltb_spec max (N.of_nat (length m + 16))) as [H'|H']; [lia|].
  split; auto. split; [eauto|]. unfold wire. cbn [map concat app]. rewrite app_nil_r.
  unfold read_key. cbn [wseq rseq maxsize].
  change (enc xopaque (seal key (nonce_at (i + 1)) m)) with (frame seal key (i + 1) m).
  rewrite <- (app_nil_r (frame seal key (i + 1) m)).
  rewrite (dec_frame seal unseal B1 B2) by (unfold fits; lia).
  rewrite Hn; [reflexivity|]. intros E. apply nonce_at_inj in E; lia.
Qed.

Lemma reuse : forall seal unseal (keypair : bytes -> bytes -> Prop) encap decap hmac sha512,
  (forall k n m, unseal k n (seal k n m) = Some m) /\
  (forall k n m, length (seal k n m) = (length m + 16)%nat) ->
  (forall coins pk sk, keypair pk sk -> decap sk (fst (encap coins pk)) = Some (snd (encap coins pk))) /\
  (forall coins pk, length (fst (encap coins pk)) = 1047%nat) ->
  (forall k m, length (hmac k m) = 32%nat) ->
  forall max_i max_r pk_i sk_i pk_r sk_r e_pk e_sk epk esk coins1 coins2 coins3 coins4,
  1234 <= max_i -> 1234 <= max_r ->
  keypair pk_r sk_r -> keypair pk_i sk_i -> keypair e_pk e_sk -> keypair epk esk ->
  length pk_i = 1218%nat -> length e_pk = 1218%nat -> length epk = 1218%nat ->
  let sealed_frames l := concat (map (fun x => frame seal (fst (fst x)) (snd (fst x)) (snd x)) l) in
  exists c1 s1 k1 o1 r1 rm o2 s2 im o3 r2 keys o4 sealed_i1 sealed_i2 sealed_r1 sealed_r2,
    initiate1 seal encap (chan0 max_i) pk_r e_pk coins1 = (s1, Ok (k1, o1)) /\
    respond1 seal unseal encap decap hmac (chan0 max_r) sk_r epk coins2 o1 = (r1, Ok (rm, o2, [])) /\
    initiate2 seal unseal encap decap hmac s1 pk_i e_pk e_sk k1 coins3 o2 = (s2, Ok (im, o3, [])) /\
    respond2 seal unseal encap decap hmac sha512 r1 pk_r esk coins4 rm o3 = (r2, Ok (keys, o4, [])) /\
    o1 = enc_fixed c1 ++ sealed_frames sealed_i1 /\ o2 = sealed_frames sealed_r1 /\
    o3 = sealed_frames sealed_i2 /\ o4 = sealed_frames sealed_r2 /\
    exists ka kb kc na nb nc m1 m2 m3 m4 m5 m6,
      In (ka, na, m1) sealed_i1 /\ In (ka, na, m2) sealed_r1 /\ m1 <> m2 /\
      In (kb, nb, m3) sealed_i2 /\ In (kb, nb, m4) sealed_r1 /\ m3 <> m4 /\
      In (kc, nc, m5) sealed_i2 /\ In (kc, nc, m6) sealed_r2 /\ m5 <> m6.
Proof.
  intros seal unseal keypair encap decap hmac sha512 [B1 B2] [K1 K2] M
    max_i max_r pk_i sk_i pk_r sk_r e_pk e_sk epk esk coins1 coins2 coins3 coins4
    Hmi Hmr Kr Ki Ke Kre Li Le Lre. cbv zeta.
  set (c1 := fst (encap coins1 pk_r)). set (k1 := snd (encap coins1 pk_r)).
  set (c2 := fst (encap coins2 e_pk)). set (k2 := snd (encap coins2 e_pk)).
  set (c3 := fst (encap coins3 epk)). set (k3 := snd (encap coins3 epk)).
  set (c4 := fst (encap coins4 pk_i)). set (k4 := snd (encap coins4 pk_i)).
  set (sp := hmac k1 (e_pk ++ epk)). set (cp := hmac k2 (sp ++ pk_i)). set (fp := hmac k3 (cp ++ pk_r)).
  do 13 eexists.
  exists [(k1, 0, e_pk)], [(k2, 1, c3); (k3, 2, pk_i); (k3, 3, cp)],
         [(k1, 0, c2); (k2, 1, epk); (k2, 2, sp)], [(k3, 3, c4); (k4, 4, fp)].
  split; [unshelve (eapply run1; eassumption); assumption|].
  split; [add_nil;
          unshelve (eapply run2; eassumption); assumption|].
  split; [add_nil;
          unshelve (eapply run3; eassumption); assumption|].
  split; [add_nil;
          unshelve (eapply run4; eassumption); assumption|].
  cbn [map concat fst snd]. rewrite !app_nil_r.
  do 4 (split; [reflexivity|]).
  exists k1, k2, k3, 0, 1, 3, e_pk, c2, c3, epk, cp, c4.
  assert (Lc2 : length c2 = 1047%nat) by apply K2.
  assert (Lc3 : length c3 = 1047%nat) by apply K2.
  assert (Lc4 : length c4 = 1047%nat) by apply K2.
  assert (Lcp : length cp = 32%nat) by apply M.
  cbn [In]. repeat split; auto; intros E; apply (f_equal (@length N)) in E; lia.
Qed.
