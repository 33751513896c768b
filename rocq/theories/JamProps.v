(** What a message that is too long does to the queue. *)
From Verif Require Import Base XdrModel XdrProofs RpcModel RpcProofs CrpcModel CrpcProofs RatchetModel RatchetProofs RatchetCases SessionModel SessionProofs SessionProps
  IniModel GroupModel SchedModel SchedProofs SchedProps SizeProofs SizeModel SizeProps JamModel.
Local Open Scope N_scope.

(** * C82 *)

(** ** Lengths *)

(** The length of what the transport is given, with the 16 bytes of the box: from the lengths of
    the payload as it is and compressed.  [up] rounds up to a multiple of four. *)
Definition up (n : N) : N := 4 * ((n + 3) / 4).
Definition size (deflate : bytes -> bytes) (m : item) : N :=
  match m with
  | ToServer b => len b + 16
  | ToClient _ p =>
      let x := len (payload_xdr p) in let y := len (deflate (payload_xdr p)) in
      216 + up (up (len (payload_command p)) + if x <? y then x else 4 + y)
  end.

Lemma up_padded n : up n = padded n.
Proof. symmetry. apply padded_spec. Qed.

Section Sizes.
Variables (hmac : bytes -> bytes -> bytes) (sha256 : bytes -> bytes) (x25519 : bytes -> bytes -> option bytes) (base : bytes -> bytes).
Variables (seal wseal : bytes -> bytes -> bytes -> bytes) (unseal wunseal : bytes -> bytes -> bytes -> option bytes) (deflate : bytes -> bytes).
Hypothesis B : box_law seal unseal.
Hypothesis W : box_law wseal wunseal.
Hypothesis Hb : forall x, length (base x) = 32%nat.

Lemma request_size r priv hn mn now ts tag to p b : length hn = 24%nat -> length mn = 24%nat -> len to = 32 ->
  crpc_request hmac sha256 x25519 base seal deflate r priv hn mn now ts tag to p = Some b ->
  len b + 16 = size deflate (ToClient to p).
Proof using B Hb.
  intros Hh Hm Ht R. unfold crpc_request in R. destruct (snd (encrypt _ _ _ _ _ _ _ _ _ _)) as [ct|] eqn:E; [|discriminate].
  injection R as <-. apply (len_encrypt _ _ _ _ _ unseal) in E; auto. rewrite len_cache by auto. rewrite E.
  unfold crpc_plain, compress, size. rewrite !up_padded.
  assert (K : forall c d : bytes, (len c <? len d) = (length c <? length d)%nat).
  { intros c d. unfold len. destruct (Nat.ltb_spec (length c) (length d)); [apply N.ltb_lt|apply N.ltb_ge]; lia. }
  rewrite (K (payload_xdr p) (deflate (payload_xdr p))).
  destruct (length (payload_xdr p) <? length (deflate (payload_xdr p)))%nat.
  - rewrite len_app, len_crpc. change (len (@nil N)) with 0. change (padded 0) with 0.
    replace (120 + (16 + padded (len (payload_command p)) + 0 + len (payload_xdr p)))
      with (136 + (padded (len (payload_command p)) + len (payload_xdr p))) by lia.
    rewrite padded_add by reflexivity. lia.
  - rewrite len_app, len_crpc. change (len (bs "zlib")) with 4. change (padded 4) with 4.
    replace (120 + (16 + padded (len (payload_command p)) + 4 + len (deflate (payload_xdr p))))
      with (136 + (padded (len (payload_command p)) + (4 + len (deflate (payload_xdr p))))) by lia.
    rewrite padded_add by reflexivity. lia.
Qed.

Lemma writes_size v b : writes wseal v b = (len b + 16 <=? maxsize (e_chan v)) && e_conn v.
Proof using W.
  clear - W. unfold writes, write_key. destruct W as [_ W2]. rewrite W2. unfold len.
  destruct (N.ltb_spec (maxsize (e_chan v)) (N.of_nat (length b + 16))) as [L|L].
  - symmetry. apply andb_false_iff. left. apply N.leb_gt. lia.
  - cbn [snd]. replace (N.of_nat (length b) + 16 <=? maxsize (e_chan v)) with true by (symmetry; apply N.leb_le; lia). reflexivity.
Qed.

(** What crypto/rand and the address book give. *)
Definition sane (v : env) : Prop := length (e_hn v) = 24%nat /\ length (e_mn v) = 24%nat.
Definition well (m : item) : Prop := match m with ToClient to _ => len to = 32 | ToServer _ => True end.

(** If all else works, an attempt works exactly if the message is within the limit of the
    session. *)
Theorem C82_exact : forall v m, sane v -> well m -> e_online v = true -> e_conn v = true -> e_saved v = true ->
  (forall to p, m = ToClient to p -> exists r tag b, e_ratchet v to = Some r /\ e_tag v = Some tag /\
     crpc_request hmac sha256 x25519 base seal deflate r (e_priv v) (e_hn v) (e_mn v) (e_now v) (e_ts v) tag to p = Some b) ->
  (tries hmac sha256 x25519 base seal wseal deflate v m = true <-> size deflate m <= maxsize (e_chan v)).
Proof using B W Hb.
  intros v m [S1 S2] Wm On Co Sa All. unfold tries. rewrite On. destruct m as [to p|b].
  - destruct (All to p eq_refl) as (r & tag & b & -> & -> & R). rewrite R, writes_size, Co, Sa, !andb_true_r.
    rewrite (request_size _ _ _ _ _ _ _ _ _ _ S1 S2 Wm R). apply N.leb_le.
  - rewrite writes_size, Co, andb_true_r. unfold size. apply N.leb_le.
Qed.

(** A message that is too long is never sent as long as the recipient's ratchet is there. *)
Definition jammed (limit : N) (m : item) (v : env) : Prop :=
  sane v /\ maxsize (e_chan v) <= limit /\ match m with ToClient to _ => e_ratchet v to <> None | ToServer _ => True end.
Theorem C82_never : forall limit m v, well m -> limit < size deflate m -> jammed limit m v ->
  tries hmac sha256 x25519 base seal wseal deflate v m = false.
Proof using B W Hb.
  intros limit m v Wm L ((S1 & S2) & M & R). unfold tries. destruct (e_online v); [|reflexivity]. destruct m as [to p|b].
  - destruct (e_ratchet v to) as [r|]; [|congruence]. destruct (e_tag v) as [tag|]; [|reflexivity].
    destruct (crpc_request _ _ _ _ _ _ _ _ _ _ _ _ _ _ _) as [b|] eqn:Q; [|reflexivity].
    rewrite writes_size, (request_size _ _ _ _ _ _ _ _ _ _ S1 S2 Wm Q).
    replace (size deflate (ToClient to p) <=? maxsize (e_chan v)) with false; [reflexivity|]. symmetry. apply N.leb_gt. lia.
  - rewrite writes_size. unfold size in L. replace (len b + 16 <=? maxsize (e_chan v)) with false; [reflexivity|]. symmetry. apply N.leb_gt. lia.
Qed.

(** Once the ratchet is gone the message no longer stops the others: it counts as sent,
    whatever the connection does, although nothing of it is. *)
Theorem C82_dropped : forall v to p, e_online v = true -> e_ratchet v to = None ->
  tries hmac sha256 x25519 base seal wseal deflate v (ToClient to p) = true /\
  tries hmac sha256 x25519 base seal wseal deflate (mkEnv true (e_ratchet v) [] [] [] 0 0 None (e_chan v) [] false false) (ToClient to p) = true.
Proof using. clear. intros v to p On R. unfold tries. cbn [e_online e_ratchet]. now rewrite On, R. Qed.

(** ** The queue *)

Lemma jruns_runs E tr s : jruns hmac sha256 x25519 base seal wseal deflate E tr s -> sruns item tr s.
Proof using. clear. intros R. induction R; [constructor|]. econstructor; eauto. Qed.

Lemma never_sent E m p tr s : jruns hmac sha256 x25519 base seal wseal deflate E tr s ->
  (forall v, E v -> tries hmac sha256 x25519 base seal wseal deflate v m = false) -> ~ In m (sent p tr).
Proof using.
  clear. intros R N. induction R as [|tr s e s' R IH S A]; [intros []|]. rewrite sent_app. intros I. apply in_app_or in I as [I|I]; [auto|].
  rewrite sent_one in I.
  destruct e as [q x|q x|q x ok|]; cbn [sent_of In] in I; try contradiction. destruct ok, (same_prio p q); cbn in I; try contradiction.
  destruct I as [->|[]]. destruct (A q m true eq_refl) as (v & Ev & T). rewrite (N v Ev) in T. discriminate.
Qed.

Lemma prefix_before {A} (m : A) l l' k r : k ++ r = l ++ m :: l' -> ~ In m k -> exists r', l = k ++ r'.
Proof using.
  clear. revert k. induction l as [|a l IH]; intros [|b k] H N.
  - exists []. reflexivity.
  - injection H as -> _. destruct N. now left.
  - exists (a :: l). reflexivity.
  - injection H as -> H. destruct (IH k H) as [r' ->]; [intros I; apply N; now right|]. exists r'. reflexivity.
Qed.

(** Once such a message has been handed over, nothing of its priority that was handed over
    later is ever sent, to whomever. *)
Theorem C82_stuck : forall limit p m tr1 tr2 s, well m -> limit < size deflate m ->
  jruns hmac sha256 x25519 base seal wseal deflate (jammed limit m) (tr1 ++ Put item p m :: tr2) s ->
  exists rest, puts p tr1 = sent p (tr1 ++ Put item p m :: tr2) ++ rest.
Proof using B W Hb.
  intros limit p m tr1 tr2 s Wm L R. pose proof (never_sent _ m p _ _ R (fun v J => C82_never limit m v Wm L J)) as N.
  destruct (C40_order _ _ _ p (jruns_runs _ _ _ R)) as [rest O]. rewrite puts_app in O.
  change (puts p (Put item p m :: tr2)) with (puts p ([Put item p m] ++ tr2)) in O. rewrite puts_app, puts_one in O. cbn [put_of] in O.
  rewrite same_prio_refl in O. cbn [app] in O. symmetry in O. eapply prefix_before; eauto.
Qed.

Lemma first_lo (tr : list (event item)) : puts Lo tr = [] \/ exists b1 y b2, tr = b1 ++ Put item Lo y :: b2 /\ puts Lo b1 = [].
Proof using.
  clear. induction tr as [|e tr IH]; [now left|].
  change (e :: tr) with ([e] ++ tr). rewrite puts_app, puts_one.
  assert (Ne : (exists y, e = Put item Lo y) \/ put_of Lo e = []).
  { destruct e as [[|] y|? ?|? ? ?|]; cbn; eauto. }
  destruct Ne as [[y ->]|Ne]; [right; exists [], y, tr; split; reflexivity|]. rewrite Ne. cbn [app].
  destruct IH as [IH|(b1 & y & b2 & -> & P)]; [now left|]. right. exists (e :: b1), y, b2. split; [reflexivity|].
  change (e :: b1) with ([e] ++ b1). rewrite puts_app, puts_one, Ne, P. reflexivity.
Qed.

Definition trying (s : sched item) : nat := match s_sender item s with STry _ Lo _ => 1 | _ => 0 end.

Lemma low_stuck tr1 m : forall tr s, sruns item tr s -> (forall a b, tr = a ++ b -> ~ In m (sent Hi a)) ->
  forall tr2, tr = tr1 ++ Put item Hi m :: tr2 -> (length (sent Lo tr) + trying s <= length (puts Lo tr1))%nat.
Proof using.
  clear. intros tr s R. induction R as [|tr s e s' R IH S]; intros N tr2 E; [destruct tr1; discriminate|].
  pose proof (runs_inv _ _ R) as I.
  assert (N' : forall a b, tr = a ++ b -> ~ In m (sent Hi a)).
  { intros a b ->. apply (N a (b ++ [e])). now rewrite app_assoc. }
  apply snoc_split in E as [(-> & <- & <-)|(b' & -> & ->)].
  - inversion S; subst. rewrite sent_app. cbn [sent app]. rewrite app_nil_r.
    pose proof (i_all _ _ I Lo) as A. apply (f_equal (@length _)) in A. rewrite !app_length in A. pose proof (i_head _ _ I) as H. unfold trying, waiting in *.
    cbn [s_sender s_queue s_at s_chan] in *. destruct t as [| |[|] x|q']; try lia.
    destruct H as [l H]. rewrite H in A. cbn [length] in A. lia.
  - specialize (IH N' b' eq_refl). set (tr := tr1 ++ Put item Hi m :: b') in *. rewrite sent_app, app_length.
    inversion S; subst; unfold trying in *; cbn [s_sender] in *; try (cbn; lia); try (destruct p; cbn in *; lia).
    (* a low priority message is chosen *)
    cbn [sent length]. destruct (le_lt_dec (length (sent Lo tr) + 1) (length (puts Lo tr1))) as [Le|Gt]; [cbn; lia|]. exfalso.
    assert (Wl : waiting Lo (mkSched item c a q e0 (SLook item)) = m0 :: l) by (unfold waiting; cbn; assumption).
    assert (Wh : waiting Hi (mkSched item c a q e0 (SLook item)) = []) by (unfold waiting; cbn; assumption).
    destruct (first_lo b') as [Z|(b1 & y & b2 & -> & P)].
    + pose proof (i_all _ _ I Lo) as A. rewrite Wl in A. apply (f_equal (@length _)) in A. unfold tr in A at 1. rewrite puts_app in A.
      change (Put item Hi m :: b') with ([Put item Hi m] ++ b') in A. rewrite puts_app, puts_one, Z in A. cbn [put_of same_prio app] in A. rewrite app_nil_r in A.
      rewrite app_length in A. cbn [app length] in A. lia.
    + assert (Q : tr = (tr1 ++ Put item Hi m :: b1) ++ Put item Lo y :: b2) by (unfold tr; now rewrite <- app_assoc).
      pose proof (i_before _ _ I _ _ _ Q) as Bf. unfold reached in Bf. rewrite Wl, Wh in Bf. cbn [length] in Bf.
      assert (PL : puts Lo (tr1 ++ Put item Hi m :: b1) = puts Lo tr1).
      { rewrite puts_app. change (Put item Hi m :: b1) with ([Put item Hi m] ++ b1). rewrite puts_app, puts_one, P. cbn. apply app_nil_r. }
      assert (PH : exists z, puts Hi (tr1 ++ Put item Hi m :: b1) = puts Hi tr1 ++ m :: z).
      { rewrite puts_app. change (Put item Hi m :: b1) with ([Put item Hi m] ++ b1). rewrite puts_app, puts_one. cbn. eauto. }
      destruct PH as [z PH]. rewrite PL, PH in Bf. rewrite app_length in Bf. cbn [length] in Bf.
      specialize (Bf ltac:(lia)).
      destruct (C40_order _ _ _ Hi R) as [rest O].
      assert (O' : sent Hi tr ++ rest = puts Hi tr1 ++ m :: (z ++ puts Hi (Put item Lo y :: b2))).
      { rewrite <- O, Q, puts_app, PH, <- app_assoc. reflexivity. }
      destruct (prefix_before _ _ _ _ _ O') as [r' C]; [apply (N' tr []); now rewrite app_nil_r|].
      apply (f_equal (@length _)) in C. rewrite app_length in C. lia.
Qed.

(** If it is an urgent one then no other message handed over later is sent either. *)
Theorem C82_stuck_all : forall limit m tr1 tr2 s, well m -> limit < size deflate m ->
  jruns hmac sha256 x25519 base seal wseal deflate (jammed limit m) (tr1 ++ Put item Hi m :: tr2) s ->
  forall p, exists rest, puts p tr1 = sent p (tr1 ++ Put item Hi m :: tr2) ++ rest.
Proof using B W Hb.
  intros limit m tr1 tr2 s Wm L R [|]; [eapply C82_stuck; eauto|].
  pose proof (never_sent _ m Hi _ _ R (fun v J => C82_never limit m v Wm L J)) as N.
  pose proof (jruns_runs _ _ _ R) as RR.
  assert (Le : (length (sent Lo (tr1 ++ Put item Hi m :: tr2)) <= length (puts Lo tr1))%nat).
  { pose proof (low_stuck tr1 m _ _ RR) as K. specialize (K ltac:(intros a b E I; apply N; rewrite E, sent_app; apply in_or_app; now left) tr2 eq_refl). lia. }
  set (tr := tr1 ++ Put item Hi m :: tr2) in *.
  destruct (C40_order _ _ _ Lo RR) as [rest O]. unfold tr in O at 1. rewrite puts_app in O.
  exists (skipn (length (sent Lo tr)) (puts Lo tr1)).
  rewrite <- (firstn_skipn (length (sent Lo tr)) (puts Lo tr1)) at 1. f_equal.
  apply (f_equal (firstn (length (sent Lo tr)))) in O. rewrite firstn_app in O.
  replace (length (sent Lo tr) - length (puts Lo tr1))%nat with 0%nat in O by lia. rewrite firstn_O, app_nil_r in O.
  rewrite O, firstn_app, Nat.sub_diag, firstn_O, app_nil_r. apply firstn_all.
Qed.
End Sizes.
Print Assumptions C82_exact.
Print Assumptions C82_never.
Print Assumptions C82_dropped.
Print Assumptions C82_stuck.
Print Assumptions C82_stuck_all.

(** ** What is typed *)

(** A private message of at most 262932 bytes is within the limit of the server; one of 262937
    or more that cannot be compressed is not. *)
Theorem C82_text : forall deflate to text mode,
  let m := ToClient to (PM (mkPrivateMessage text mode)) in
  (len text <= 262932 -> size deflate m <= 263168) /\
  (262936 < len text -> len (payload_xdr (PM (mkPrivateMessage text mode))) < len (deflate (payload_xdr (PM (mkPrivateMessage text mode)))) ->
   263168 < size deflate m).
Proof.
  intros deflate to text mode m. unfold m, size.
  assert (X : len (payload_xdr (PM (mkPrivateMessage text mode))) = 8 + padded (len text)).
  { cbn [payload_xdr enc PrivateMessage_codec xiso xpair fst snd PrivateMessage_Text PrivateMessage_Mode xuint32]. rewrite len_app, len_opaque, len_be. lia. }
  set (x := len (payload_xdr _)) in *. set (y := len (deflate _)) in *. rewrite !up_padded.
  change (len (payload_command _)) with 7. change (padded 7) with 8.
  split.
  - intros L. assert (P : padded (len text) <= padded 262932) by now apply padded_mono. change (padded 262932) with 262932 in P.
    assert (Q : padded (8 + (if x <? y then x else 4 + y)) <= padded 262952).
    { apply padded_mono. destruct (N.ltb_spec x y); lia. }
    change (padded 262952) with 262952 in Q. lia.
  - intros L Lt. apply N.ltb_lt in Lt. rewrite Lt, X.
    assert (P : padded 262937 <= padded (len text)) by (apply padded_mono; lia). change (padded 262937) with 262940 in P.
    pose proof (padded_bounds (8 + (8 + padded (len text)))). lia.
Qed.
Print Assumptions C82_text.

(** ** The session *)

(** The attempt at a message that is too long puts the session out of step: the next message,
    which is not, counts as sent, but the server cannot read it. *)
Theorem C82_lost_refuted : forall hmac sha256 x25519 base seal wseal unseal wunseal deflate,
  box_law seal unseal -> box_law wseal wunseal -> (forall x, length (base x) = 32%nat) ->
  (forall k n n' m, n <> n' -> wunseal k n (wseal k n' m) = None) ->
  forall v i rs ws to p r tag big body, sane v -> len to = 32 ->
  e_chan v = mkChan (nonce_at i) rs (maxsize (e_chan v)) -> i + 1 < 2 ^ 64 -> maxsize (e_chan v) <= 2 ^ 31 - 4 ->
  e_online v = true -> e_conn v = true -> e_ratchet v to = Some r -> e_tag v = Some tag ->
  crpc_request hmac sha256 x25519 base seal deflate r (e_priv v) (e_hn v) (e_mn v) (e_now v) (e_ts v) tag to p = Some big ->
  maxsize (e_chan v) < size deflate (ToClient to p) -> size deflate (ToServer body) <= maxsize (e_chan v) ->
  let (c1, r1) := write_key wseal (e_chan v) (e_key v) big in
  let (c2, r2) := write_key wseal c1 (e_key v) body in
  let v' := mkEnv (e_online v) (e_ratchet v) (e_priv v) (e_hn v) (e_mn v) (e_now v) (e_ts v) (e_tag v) c1 (e_key v) (e_conn v) (e_saved v) in
  tries hmac sha256 x25519 base seal wseal deflate v (ToClient to p) = false /\
  tries hmac sha256 x25519 base seal wseal deflate v' (ToServer body) = true /\
  snd (read_key wunseal (mkChan ws (nonce_at i) (maxsize (e_chan v))) (e_key v) (wire [r1; r2])) = Err ErrDecrypt.
Proof.
  intros hmac sha256 x25519 base seal wseal unseal wunseal deflate B W Hb Hn v i rs ws to p r tag big body Sv Ht Ec Hi Hmax On Co Er Et R L Ls.
  destruct Sv as [S1 S2]. pose proof (request_size _ _ _ _ _ _ deflate B Hb _ _ _ _ _ _ _ _ _ _ S1 S2 Ht R) as Z.
  assert (Tf : tries hmac sha256 x25519 base seal wseal deflate v (ToClient to p) = false).
  { eapply (C82_never hmac sha256 x25519 base seal wseal unseal wunseal deflate B W Hb (maxsize (e_chan v))); [exact Ht|exact L|].
    split; [split; assumption|]. split; [lia|]. rewrite Er. discriminate. }
  unfold size in Ls. unfold len in *.
  pose proof (C14_overflow_refuted wseal wunseal W Hn (e_key v) (maxsize (e_chan v)) i ws rs big body Hi Hmax ltac:(lia) Ls) as K.
  rewrite <- Ec in K. destruct (write_key wseal (e_chan v) (e_key v) big) as [c1 r1] eqn:E1.
  destruct (write_key wseal c1 (e_key v) body) as [c2 r2] eqn:E2. destruct K as (_ & [out O] & Rd).
  split; [exact Tf|]. split; [|exact Rd]. unfold tries, writes. cbn [e_online e_chan e_key e_conn]. rewrite On, E2, O. cbn. exact Co.
Qed.
Print Assumptions C82_lost_refuted.

(** ** A member who leaves *)

Lemma len_members l : Forall (fun m : bytes => len m = 32) l -> len (enc (xlist 32 (xfixed 32)) l) = 4 + 32 * len l.
Proof.
  intros F. cbn [enc xlist]. rewrite len_app, len_be. enough (len (concat (map (enc (xfixed 32)) l)) = 32 * len l) by lia.
  induction F as [|m l H F IH]; [reflexivity|]. cbn [map concat]. rewrite len_app, len_cons, IH. cbn [enc xfixed]. rewrite len_fixed, H.
  change (padded 32) with 32. lia.
Qed.
Lemma without_all (P : bytes -> Prop) x l : Forall P l -> Forall P (without x l).
Proof. induction 1; cbn; [constructor|]. destruct (eqb _ _); auto. Qed.

(** The reason that a member gives for leaving is passed on by the administrator in a longer
    message.  So a member can leave with a reason that the server passes on, while what
    the administrator's client queues then is too long: by [C82_stuck_all] it sends nothing
    any more. *)
Theorem C82_member_refuted : forall deflate me from now known w c gp g others,
  mget (c_groups c) (GroupPart_Name gp) = Some g -> GroupList_Name g = GroupPart_Name gp -> GroupList_Members g = me :: others ->
  In from others -> Forall (fun m => len m = 32) (me :: others) ->
  263080 < 236 + up (len (GroupPart_Name gp)) + up (len (GroupPart_Reason gp)) <= 263160 ->
  size deflate (ToClient me (GPart gp)) + 4 <= 263168 /\
  let sent := o_sent (fst (handle_part me now known w c from gp)) in
  sent <> [] /\ forall to p, In (to, p) sent -> len (payload_xdr p) < len (deflate (payload_xdr p)) -> 263168 < size deflate (ToClient to p).
Proof.
  intros deflate me from now known w c gp g others G Gn Gm If F R.
  rewrite !up_padded in R. split.
  - unfold size. set (x := len (payload_xdr _)). set (y := len (deflate _)). rewrite !up_padded. change (len (payload_command _)) with 9. change (padded 9) with 12.
    assert (X : x = 8 + padded (len (GroupPart_Name gp)) + padded (len (GroupPart_Reason gp))).
    { unfold x. cbn [payload_xdr enc GroupPart_codec xiso xpair fst snd]. rewrite len_app, !len_opaque. lia. }
    assert (Q : padded (12 + (if x <? y then x else 4 + y)) <= padded (24 + padded (len (GroupPart_Name gp)) + padded (len (GroupPart_Reason gp)) + 0)).
    { apply padded_mono. destruct (N.ltb_spec x y); lia. }
    rewrite (padded_add (24 + padded (len (GroupPart_Name gp)) + padded (len (GroupPart_Reason gp))) 0) in Q. { change (padded 0) with 0 in Q. lia. }
    pose proof (padded_mult (len (GroupPart_Name gp))) as M1. pose proof (padded_mult (len (GroupPart_Reason gp))) as M2.
    rewrite N.add_mod, (N.add_mod 24), M1, M2 by lia. reflexivity.
  - unfold handle_part. rewrite G, Gm, eqb_refl. cbn [negb].
    assert (Mf : mem from others = true) by (apply mem_In; exact If). rewrite Mf. cbn [negb].
    destruct (save_group _ _ _) as [c' ok]. cbn [fst done o_sent]. split; [destruct others; [destruct If|discriminate]|].
    intros to p I D. apply in_map_iff in I as (m & E & _). injection E as <- <-.
    unfold size. rewrite (proj2 (N.ltb_lt _ _) D). rewrite !up_padded. change (len (payload_command _)) with 9. change (padded 9) with 12.
    assert (Fm : Forall (fun m => len m = 32) (me :: without from others)).
    { inversion F; subst. constructor; [assumption|]. now apply without_all. }
    assert (Lf : len from = 32). { rewrite Forall_forall in F. apply F. now right. }
    match goal with |- _ < 216 + padded (12 + len ?x) => assert (X : 88 + padded (len (GroupPart_Name gp)) + padded (len (GroupPart_Reason gp)) + 8 <= len x + 0) end.
    { cbn [payload_xdr enc GroupKick_codec GroupList_codec xiso xpair fst snd GroupKick_Member GroupKick_Reason GroupKick_Parted GroupKick_NewGroupList
        GroupList_Name GroupList_Generation GroupList_Timestamp GroupList_Members xbool xuint64 xint64 xfixed]. rewrite !len_app, !len_opaque, !len_be, len_members by exact Fm.
      rewrite len_fixed, Lf, Gn, len_cons. change (padded 32) with 32. lia. }
    match goal with |- _ < 216 + padded ?x => pose proof (padded_bounds x) end. lia.
Qed.
Print Assumptions C82_member_refuted.

(** ** Cases *)

Definition long : item := ToClient z32 (PM (mkPrivateMessage (repeat 7 100) 0)).
Definition ping : item := ToServer (bs "ping").
Definition case_env : env := mkEnv true (fun _ => Some toy_b) [5] z24 z24 100 101 (Some 3) (mkChan (nonce_at 0) (nonce_at 0) 300) [1] true true.
Definition jam_run : list (event item) :=
  [Put _ Hi ping; Put _ Hi long; Internal _; Internal _; Internal _; Internal _; Internal _; Chosen _ Hi ping; Tried _ Hi ping true;
   Internal _; Internal _; Internal _; Put _ Hi ping; Internal _; Internal _; Internal _; Internal _; Chosen _ Hi long; Tried _ Hi long false].

Example C82_dropped_case : e_online (mkEnv true (fun _ => None) [] [] [] 0 0 None (e_chan case_env) [] false false) = true /\
  jammed 300 long case_env /\ ~ jammed 300 long (mkEnv true (fun _ => None) z24 z24 z24 0 0 None (e_chan case_env) [] false false).
Proof. split; [reflexivity|]. split; [repeat split; vm_compute; congruence|]. intros (_ & _ & X). now apply X. Qed.

Example C82_size_case : size no_gain long = 332 /\ tries toy_hmac toy_sha toy_x25519 toy_base RatchetCases.toy_seal RatchetCases.toy_seal no_gain case_env long = false.
Proof. vm_compute. auto. Qed.

Example C82_stuck_case : exists s, jruns toy_hmac toy_sha toy_x25519 toy_base RatchetCases.toy_seal RatchetCases.toy_seal no_gain (jammed 300 long) jam_run s /\
  puts Hi jam_run = [ping; long; ping] /\ sent Hi jam_run = [ping].
Proof.
  assert (J : jammed 300 long case_env) by (repeat split; vm_compute; congruence).
  assert (K : forall e : event item, match e with
     | Tried _ _ m ok => tries toy_hmac toy_sha toy_x25519 toy_base RatchetCases.toy_seal RatchetCases.toy_seal no_gain case_env m = ok | _ => True end ->
     forall p m ok, e = Tried item p m ok -> exists v, jammed 300 long v /\
       tries toy_hmac toy_sha toy_x25519 toy_base RatchetCases.toy_seal RatchetCases.toy_seal no_gain v m = ok).
  { intros e H p m ok ->. exists case_env. auto. }
  eexists. split; [|split; reflexivity]. unfold jam_run.
  repeat match goal with
    | |- jruns _ _ _ _ _ _ _ _ [] _ => apply jruns_nil
    | |- jruns _ _ _ _ _ _ _ _ ?l _ => rewrite (app_removelast_last (Internal _)) by discriminate; cbn [removelast last]; eapply jruns_snoc; [| |apply K; vm_compute; auto]
    end.
  - apply St_put; cbn; lia.
  - apply St_put; cbn; lia.
  - eapply St_recv_hi; reflexivity.
  - apply St_append_hi.
  - apply St_signal_hi.
  - eapply St_drain; reflexivity.
  - apply St_execute.
  - eapply St_choose_hi; reflexivity.
  - apply St_ok.
  - eapply St_pop; reflexivity.
  - apply St_append_hi.
  - apply St_signal_hi.
  - apply St_put; cbn; lia.
  - eapply St_drain; reflexivity.
  - apply St_append_hi.
  - apply St_signal_hi.
  - apply St_drained; reflexivity.
  - eapply St_choose_hi; reflexivity.
  - apply St_failed.
Qed.

(** The same message where the limit is exactly its length, and the message after one that is
    too long. *)
Example C82_exact_case : tries toy_hmac toy_sha toy_x25519 toy_base RatchetCases.toy_seal RatchetCases.toy_seal no_gain
  (mkEnv true (fun _ => Some toy_b) [5] z24 z24 100 101 (Some 3) (mkChan (nonce_at 0) (nonce_at 0) 332) [1] true true) long = true.
Proof. vm_compute. reflexivity. Qed.
Example C82_lost_case :
  let v' := mkEnv true (fun _ => Some toy_b) [5] z24 z24 100 101 (Some 3) (mkChan (nonce_at 1) (nonce_at 0) 300) [1] true true in
  tries toy_hmac toy_sha toy_x25519 toy_base RatchetCases.toy_seal RatchetCases.toy_seal no_gain v' ping = true /\
  match crpc_request toy_hmac toy_sha toy_x25519 toy_base RatchetCases.toy_seal no_gain toy_b [5] z24 z24 100 101 3 z32 (PM (mkPrivateMessage (repeat 7 100) 0)) with
  | Some big => fst (write_key RatchetCases.toy_seal (e_chan case_env) [1] big) = e_chan v'
  | None => False
  end /\
  snd (read_key RatchetCases.toy_unseal (mkChan (nonce_at 0) (nonce_at 0) 300) [1] (wire [snd (write_key RatchetCases.toy_seal (e_chan v') [1] (bs "ping"))])) = Err ErrDecrypt.
Proof. vm_compute. auto. Qed.
Example C82_text_case : exists text, len text = 262937 /\ 263168 < size no_gain (ToClient z32 (PM (mkPrivateMessage text 0))).
Proof.
  assert (L : len (repeat 9 (N.to_nat 262937)) = 262937) by (unfold len; now rewrite repeat_length, N2Nat.id).
  set (t := repeat 9 (N.to_nat 262937)) in *. clearbody t. exists t. split; [exact L|].
  apply (C82_text no_gain z32 t 0); [lia|]. unfold no_gain. rewrite len_cons. lia.
Qed.

(** A group of two, and a member who leaves with a reason of 262900 bytes. *)
Definition leave (reason : bytes) : GroupPart := mkGroupPart (bs "us") reason.
Definition other : bytes := repeat 3 32.
Example C82_member_case : forall w, exists reason, len reason = 262900 /\
  let c := mkGclient [(bs "us", mkGroupList (bs "us") 4 9 [z32; other])] [] None None [] in
  size no_gain (ToClient z32 (GPart (leave reason))) + 4 <= 263168 /\
  let sent := o_sent (fst (handle_part z32 10 (fun _ => true) w c other (leave reason))) in
  sent <> [] /\ forall to p, In (to, p) sent -> 263168 < size no_gain (ToClient to p).
Proof.
  intros w. assert (L : len (repeat 9 (N.to_nat 262900)) = 262900) by (unfold len; now rewrite repeat_length, N2Nat.id).
  set (t := repeat 9 (N.to_nat 262900)) in *. clearbody t. exists t. split; [exact L|]. intros c.
  destruct (C82_member_refuted no_gain z32 other 10 (fun _ => true) w c (leave t) (mkGroupList (bs "us") 4 9 [z32; other]) [other]) as (A & S & K);
    try reflexivity; [now left|repeat constructor|cbn [leave GroupPart_Name GroupPart_Reason]; rewrite L; vm_compute; split; congruence|].
  split; [exact A|]. split; [exact S|]. intros to p I. apply K; [exact I|]. unfold no_gain. rewrite len_cons. lia.
Qed.
