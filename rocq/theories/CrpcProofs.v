(** Client to client messages arrive as they were sent. *)
From Verif Require Import Base XdrModel XdrProofs RpcModel RpcProofs CrpcModel.

(** The fields of a payload fit their XDR types (no decoder limit is used between
    clients). *)
Definition payload_ok (p : crpc_payload) : Prop :=
  match p with
  | PM m => PrivateMessage_ok 0 m
  | GInvite m => GroupInvite_ok 0 m
  | GJoin m => GroupJoin_ok 0 m
  | GList m => GroupList_ok 0 m
  | GUpdate m => GroupUpdate_ok 0 m
  | GMessage m => GroupMessage_ok 0 m
  | GKill m => GroupKill_ok 0 m
  | GKick m => GroupKick_ok 0 m
  | GPart m => GroupPart_ok 0 m
  | ChNew m => ChunkNew_ok 0 m
  | Ch m => Chunk_ok 0 m
  | Janitor m => JanitorMessage_ok 0 m
  end.

Lemma payload_of_enc {A} (c : codec A) ok f x : good c ok -> ok 0%N x ->
  payload_of c f (enc c x) = Ok (f x).
Proof.
  intros (R & _) H. unfold payload_of. rewrite <- (app_nil_r (enc c x)), R by auto. reflexivity.
Qed.

Ltac eval_eqb := repeat match goal with |- context [eqb (EqB := ?i) ?a ?b] =>
  let v := eval vm_compute in (eqb (EqB := i) a b) in change (eqb (EqB := i) a b) with v; cbv iota end.

Lemma command_decoder_payload p : payload_ok p ->
  exists d, command_decoder (payload_command p) = Some d /\ d (payload_xdr p) = Ok p.
Proof.
  intros H. destruct p; cbn [payload_ok] in H; eexists; (split; [cbn [payload_command]; unfold command_decoder; eval_eqb; reflexivity|]); cbn [payload_xdr];
  (eapply payload_of_enc; [|exact H]);
  first [apply good_PrivateMessage|apply good_GroupInvite|apply good_GroupJoin|apply good_GroupPart
        |apply good_GroupKill|apply good_GroupKick|apply good_GroupUpdate|apply good_GroupList
        |apply good_GroupMessage|apply good_ChunkNew|apply good_Chunk|apply good_JanitorMessage].
Qed.

Lemma str_ok_small s : (length s <= 100)%nat -> str_ok 0 s.
Proof.
  intros H. unfold str_ok. cbv zeta. split; [|now left].
  assert (pad_len (N.of_nat (length s)) <= 3)%N.
  { unfold pad_len. pose proof (N.mod_lt (4 - N.of_nat (length s) mod 4) 4). lia. }
  unfold max_int32. lia.
Qed.

Lemma crpc_round deflate inflate now p :
  (forall x, inflate (deflate x) = Some x) -> i64_ok now -> payload_ok p ->
  crpc_receive inflate (crpc_plain deflate now p) = Ok (now, p).
Proof.
  intros Hz Hn Hp. unfold crpc_receive, crpc_plain.
  destruct (command_decoder_payload p Hp) as (d & Ed & Hd).
  destruct (compress deflate (payload_xdr p)) as [body comp] eqn:Ec.
  destruct good_CRPC as (R & _). rewrite R.
  - cbn [CRPC_Compression CRPC_Command CRPC_Timestamp]. rewrite Ed.
    unfold compress in Ec. destruct (length (payload_xdr p) <? length (deflate (payload_xdr p))).
    + apply pair_equal_spec in Ec; destruct Ec as [<- <-]. rewrite eqb_refl. now rewrite Hd.
    + apply pair_equal_spec in Ec; destruct Ec as [<- <-].
      change (eqb (bs "zlib") []) with false. rewrite eqb_refl. now rewrite Hz, Hd.
  - unfold CRPC_ok. cbn [CRPC_Compression CRPC_Command CRPC_Timestamp]. split; [auto|].
    split; apply str_ok_small.
    + destruct p; vm_compute; lia.
    + unfold compress in Ec. destruct (_ <? _); apply pair_equal_spec in Ec; destruct Ec as [_ <-]; vm_compute; lia.
Qed.

(** The sender never makes a message larger than the plain encoding by
    compressing it. *)
Lemma compress_small deflate x : (length (fst (compress deflate x)) <= length x)%nat.
Proof.
  unfold compress. destruct (Nat.ltb_spec (length x) (length (deflate x))); simpl; lia.
Qed.

Lemma crpc_plain_length deflate now p :
  (length (crpc_plain deflate now p) <=
  length (enc CRPC_codec (mkCRPC now (payload_command p) (bs "zlib"))) + length (payload_xdr p))%nat.
Proof.
  unfold crpc_plain. pose proof (compress_small deflate (payload_xdr p)) as H.
  destruct (compress deflate (payload_xdr p)) as [body comp] eqn:E. cbn [fst] in H.
  rewrite app_length.
  assert (length (enc CRPC_codec (mkCRPC now (payload_command p) comp)) <=
          length (enc CRPC_codec (mkCRPC now (payload_command p) (bs "zlib"))))%nat; [|lia].
  unfold compress in E. destruct (_ <? _); apply pair_equal_spec in E; destruct E as [_ <-]; [|lia].
  cbn [CRPC_codec enc xiso xpair CRPC_Timestamp CRPC_Command CRPC_Compression fst snd].
  rewrite !app_length. change (length (enc xopaque [])) with 4.
  change (length (enc xopaque (bs "zlib"))) with 8. lia.
Qed.

Lemma bad_zlib_panics inflate body cmd d now :
  inflate body = None -> i64_ok now -> command_decoder cmd = Some d -> (length cmd <= 100)%nat ->
  crpc_receive inflate (enc CRPC_codec (mkCRPC now cmd (bs "zlib")) ++ body) = Panic.
Proof.
  intros Hz Hn Hd Hl. unfold crpc_receive. destruct good_CRPC as (R & _). rewrite R.
  - cbn [CRPC_Compression CRPC_Command CRPC_Timestamp]. rewrite Hd.
    change (eqb (bs "zlib") []) with false. rewrite eqb_refl. now rewrite Hz.
  - unfold CRPC_ok. cbn [CRPC_Compression CRPC_Command CRPC_Timestamp]. split; [auto|].
    split; apply str_ok_small; auto. vm_compute; lia.
Qed.

Lemma command_decoder_safe c d x : command_decoder c = Some d -> d x <> Panic.
Proof.
  unfold command_decoder.
  repeat match goal with |- context[if ?t then _ else _] => destruct t end;
    intros E0; try discriminate; injection E0 as <-; unfold payload_of;
    match goal with |- context[dec ?c ?l ?y] => destruct (dec c l y) as [[? ?]|] end; discriminate.
Qed.

(** The only way decoding panics is a zlib message with a bad header. *)
Lemma crpc_panic_only inflate b : crpc_receive inflate b = Panic ->
  exists h rest, dec CRPC_codec 0 b = Some (h, rest) /\
    CRPC_Compression h = bs "zlib" /\ inflate rest = None /\
    command_decoder (CRPC_Command h) <> None.
Proof.
  unfold crpc_receive. destruct (dec CRPC_codec 0 b) as [[h rest]|] eqn:E; [|discriminate].
  intros H. exists h, rest. split; auto.
  destruct (eqb (CRPC_Compression h) []) eqn:E1.
  - destruct (command_decoder (CRPC_Command h)) as [d|] eqn:E2; [|try discriminate H].
    destruct (d rest) eqn:E3; try discriminate. exfalso; exact (command_decoder_safe _ _ _ E2 E3).
  - destruct (eqb (CRPC_Compression h) (bs "zlib")) eqn:E4; [|try discriminate H].
    apply eqb_true in E4. split; auto.
    destruct (command_decoder (CRPC_Command h)) as [d|] eqn:E2; [|try discriminate H].
    destruct (inflate rest) as [data|] eqn:E5.
    + destruct (d data) eqn:E3; try discriminate. exfalso; exact (command_decoder_safe _ _ _ E2 E3).
    + split; auto. discriminate.
Qed.
