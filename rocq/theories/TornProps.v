(** C89: what a message file becomes that a full disk or a crash cut short. *)
From Verif Require Import Base IniModel IniMemProofs XdrModel XdrProofs RpcModel RpcProofs MailModel MailProofs MailOnce MailKept MailProps.
Local Open Scope N_scope.

(** * Specification *)

(** What is made of the first [k] bytes of the file of a message: a message in which
    fields are missing if the cut lies between two fields (or before the data of the
    payload), an error otherwise. *)
Definition salvage (d : DiskMessage) (k : nat) : option DiskMessage :=
  let p := (4 * ((length (DiskMessage_Payload d) + 3) / 4))%nat in
  if (k =? 0)%nat then Some (mkDiskMessage (repeat 0 32) 0 [] false)
  else if (k =? 32)%nat then Some (mkDiskMessage (DiskMessage_From d) 0 [] false)
  else if (k =? 40)%nat || (k =? 44)%nat then Some (mkDiskMessage (DiskMessage_From d) (DiskMessage_Received d) [] false)
  else if (k =? 44 + p)%nat then Some (mkDiskMessage (DiskMessage_From d) (DiskMessage_Received d) (DiskMessage_Payload d) false)
  else if (48 + p <=? k)%nat then Some d
  else None.

(** * Proofs *)

Lemma padded_nat n : (n + N.to_nat (pad_len (N.of_nat n)) = 4 * ((n + 3) / 4))%nat.
Proof.
  unfold pad_len. pose proof (Nat.div_mod n 4 ltac:(lia)) as D. pose proof (Nat.mod_upper_bound n 4 ltac:(lia)) as U.
  replace (N.of_nat n mod 4) with (N.of_nat (n mod 4)) by (change 4 with (N.of_nat 4); now rewrite Nat2N.inj_mod).
  set (q := (n / 4)%nat) in *. set (r := (n mod 4)%nat) in *. clearbody q r. subst n.
  destruct r as [|[|[|[|r]]]]; [| | | |lia].
  - replace (4 * q + 0 + 3)%nat with (3 + q * 4)%nat by lia. rewrite Nat.div_add by lia. cbn. lia.
  - replace (4 * q + 1 + 3)%nat with (4 + q * 4)%nat by lia. rewrite Nat.div_add by lia. cbn. lia.
  - replace (4 * q + 2 + 3)%nat with (5 + q * 4)%nat by lia. rewrite Nat.div_add by lia. cbn. lia.
  - replace (4 * q + 3 + 3)%nat with (6 + q * 4)%nat by lia. rewrite Nat.div_add by lia. cbn. lia.
Qed.

Lemma field_cut {A} (c : codec A) ok a rest k : XdrProofs.good c ok -> ok 0 a ->
  dec c 0 (firstn k (enc c a ++ rest)) =
  if (k <? length (enc c a))%nat then None else Some (a, firstn (k - length (enc c a)) rest).
Proof.
  intros G O. destruct (Nat.ltb_spec k (length (enc c a))) as [L|L].
  - destruct (good_faithful c ok G) as (_ & _ & T). apply (T 0 a _ (skipn k (enc c a)) O).
    + rewrite firstn_app. replace (k - length (enc c a))%nat with 0%nat by lia. cbn [firstn]. rewrite app_nil_r. symmetry. apply firstn_skipn.
    + intros E. apply (f_equal (@length N)) in E. rewrite skipn_length in E. cbn in E. lia.
  - rewrite firstn_app, firstn_all2 by lia. destruct G as (R & _). apply R. exact O.
Qed.

Lemma cut_empty (k : nat) (x : bytes) : (0 < length x)%nat -> firstn k x = [] <-> k = 0%nat.
Proof.
  intros L. split; [|now intros ->]. intros E. apply (f_equal (@length N)) in E. rewrite firstn_length in E. cbn in E. lia.
Qed.

Lemma read_cut d k : DiskMessage_ok 0 d -> read_msg (firstn k (enc DiskMessage_codec d)) = salvage d k.
Proof.
  intros (H1 & H2 & H3). destruct d as [from rcv p c]. cbn [DiskMessage_From DiskMessage_Received DiskMessage_Payload] in *.
  change (enc DiskMessage_codec (mkDiskMessage from rcv p c)) with
    (enc (xfixed 32) from ++ (enc xint64 rcv ++ (enc xopaque p ++ enc xbool c))).
  assert (L32 : length (enc (xfixed 32) from) = 32%nat).
  { pose proof (enc_fixed_length from) as X. unfold size_ok in H1. rewrite H1 in X. change (pad_len 32) with 0 in X. cbn [enc xfixed]. lia. }
  assert (L8 : length (enc xint64 rcv) = 8%nat) by apply be_length.
  assert (L4 : length (enc xbool c) = 4%nat) by apply be_length.
  assert (Lf : length (enc_fixed p) = (4 * ((length p + 3) / 4))%nat).
  { rewrite <- padded_nat. pose proof (enc_fixed_length p). lia. }
  assert (Lo : length (enc xopaque p) = (4 + 4 * ((length p + 3) / 4))%nat).
  { cbn [enc xopaque]. rewrite app_length, be_length, Lf. reflexivity. }
  unfold salvage. cbn [DiskMessage_From DiskMessage_Received DiskMessage_Payload].
  set (P := (4 * ((length p + 3) / 4))%nat) in *.
  set (x3 := enc xopaque p ++ enc xbool c).
  set (x2 := enc xint64 rcv ++ x3). set (x1 := enc (xfixed 32) from ++ x2).
  assert (N3 : (0 < length x3)%nat) by (unfold x3; rewrite app_length; lia).
  assert (N2 : (0 < length x2)%nat) by (unfold x2; rewrite app_length; lia).
  assert (N1 : (0 < length x1)%nat) by (unfold x1; rewrite app_length; lia).
  assert (T3 : length x3 = (8 + P)%nat) by (unfold x3; rewrite app_length; lia).
  unfold read_msg. destruct (firstn k x1) as [|z zs] eqn:Eb.
  { apply cut_empty in Eb as ->; auto. }
  rewrite <- Eb. assert (K0 : k <> 0%nat) by (intros ->; discriminate). clear z zs Eb.
  destruct (Nat.eqb_spec k 0); [lia|].
  unfold x1. rewrite (field_cut _ _ _ _ _ (good_fixed 32 ltac:(cbv; discriminate)) H1), L32.
  destruct (Nat.ltb_spec k 32).
  { destruct (Nat.eqb_spec k 32); [lia|]. destruct (Nat.eqb_spec k 40); [lia|]. destruct (Nat.eqb_spec k 44); [lia|]. cbn [orb].
    destruct (Nat.eqb_spec k (44 + P)); [lia|]. destruct (Nat.leb_spec (48 + P) k); [lia|reflexivity]. }
  destruct (firstn (k - 32) x2) as [|z zs] eqn:Eb.
  { apply cut_empty in Eb; auto. destruct (Nat.eqb_spec k 32); [reflexivity|lia]. }
  rewrite <- Eb. assert (K1 : k <> 32%nat) by (intros ->; discriminate). clear z zs Eb.
  destruct (Nat.eqb_spec k 32); [lia|].
  unfold x2. rewrite (field_cut _ _ _ _ _ good_int64 H2), L8.
  destruct (Nat.ltb_spec (k - 32) 8).
  { destruct (Nat.eqb_spec k 40); [lia|]. destruct (Nat.eqb_spec k 44); [lia|]. cbn [orb].
    destruct (Nat.eqb_spec k (44 + P)); [lia|]. destruct (Nat.leb_spec (48 + P) k); [lia|reflexivity]. }
  destruct (firstn (k - 32 - 8) x3) as [|z zs] eqn:Eb.
  { apply cut_empty in Eb; auto. destruct (Nat.eqb_spec k 40); [reflexivity|lia]. }
  rewrite <- Eb. assert (K2 : k <> 40%nat) by (intros ->; discriminate). clear z zs Eb.
  destruct (Nat.eqb_spec k 40); [lia|]. cbn [orb].
  rewrite firstn_length, T3.
  destruct (Nat.eqb_spec (Nat.min (k - 32 - 8) (8 + P)) 4).
  { assert (k = 44%nat) by lia. subst k. cbn [Nat.eqb]. change (44 - 32 - 8)%nat with 4%nat.
    assert (E4 : firstn 4 x3 = be 4 (N.of_nat (length p))).
    { unfold x3. cbn [enc xopaque]. rewrite <- app_assoc.
      pose proof (be_length 4 (N.of_nat (length p))) as B4. set (h := be 4 (N.of_nat (length p))) in *. clearbody h. rewrite <- B4.
      rewrite firstn_app, Nat.sub_diag, firstn_O, app_nil_r. apply firstn_all. }
    rewrite E4. destruct H3 as [S1 S2]. set (L := N.of_nat (length p)) in *. clearbody L.
    assert (S3 : L <= max_int32) by (pose proof (N.le_add_r L (pad_len L)); lia).
    assert (M : max_payload (of_be (be 4 L)) = true).
    { rewrite of_be_be, N.mod_small by (eapply N.le_lt_trans; [exact S3|reflexivity]).
      unfold max_payload. rewrite andb_true_iff, !N.leb_le. split; assumption. }
    now rewrite M. }
  destruct (Nat.eqb_spec k 44); [lia|].
  unfold x3. rewrite (field_cut _ _ _ _ _ good_opaque H3), Lo.
  destruct (Nat.ltb_spec (k - 32 - 8) (4 + P)).
  { destruct (Nat.eqb_spec k (44 + P)); [lia|]. destruct (Nat.leb_spec (48 + P) k); [lia|reflexivity]. }
  destruct (firstn (k - 32 - 8 - (4 + P)) (enc xbool c)) as [|z zs] eqn:Eb.
  { apply cut_empty in Eb; [|lia]. destruct (Nat.eqb_spec k (44 + P)); [reflexivity|lia]. }
  rewrite <- Eb. assert (K3 : k <> (44 + P)%nat) by (intros ->; rewrite firstn_O in Eb || replace (44 + P - 32 - 8 - (4 + P))%nat with 0%nat in Eb by lia; discriminate). clear z zs Eb.
  destruct (Nat.eqb_spec k (44 + P)); [lia|].
  pose proof (field_cut xbool _ c [] (k - 32 - 8 - (4 + P)) good_bool Logic.I) as X. rewrite app_nil_r, L4 in X. rewrite X.
  destruct (Nat.ltb_spec (k - 32 - 8 - (4 + P)) 4); destruct (Nat.leb_spec (48 + P) k); try lia; reflexivity.
Qed.

(** * Theorems *)

(** What is read of a file cut short, for every message and every length. *)
Theorem C89_cut d k : DiskMessage_ok 0 d -> read_msg (firstn k (enc DiskMessage_codec d)) = salvage d k.
Proof. apply read_cut. Qed.
Print Assumptions C89_cut.

(** A write that fails because the disk is full harms nothing else: it leaves the other
    files, the deliveries that succeeded and the session as they are; and what it
    leaves of its own file is a beginning of it, or no file. *)
Theorem C89_frame w m i part m' : clock w <> AnyTime -> reachable w m -> exec w m (AFull i part) = Some m' ->
  exists n d, nth_error (m_pending m) i = Some (n, d) /\ mget (m_disk m) n = None /\
    (forall x, x <> n -> mget (m_disk m') x = mget (m_disk m) x) /\
    (mget (m_disk m') n = match part with Some k => Some (firstn k (enc DiskMessage_codec d)) | None => None end) /\
    m_done m' = m_done m /\ m_sess m' = m_sess m /\ m_got m' = m_got m /\ m_there m' = m_there m.
Proof.
  intros C R E. cbn [exec] in E. destruct (nth_error (m_pending m) i) as [[n d]|] eqn:P; [|discriminate]. exists n, d. split; [reflexivity|].
  destruct (pending_fresh w m i n d C (inv_disk_reach w m C R) P) as (_ & _ & G & _). split; [exact G|].
  destruct part as [k|].
  - destruct (m_there m && _); [|discriminate]. injection E as <-. ssimp. split; [|split; [|now auto]].
    + intros x X. rewrite mget_mset. destruct (eqb_spec x n); [congruence|reflexivity].
    + rewrite mget_mset. destruct (eqb_spec n n) as [_|X]; [reflexivity|destruct (X eq_refl)].
  - injection E as <-. ssimp. auto 10.
Qed.
Print Assumptions C89_frame.

Lemma got_before w n b : clock w = Increasing -> forall l m m', reachable w m -> mget (m_disk m) n = Some b -> read_msg b = None ->
  (forall p, In p (m_got m) -> lex_leb n (p_name p) = false) -> Forall act_ok l -> execs w m l = Some m' ->
  forall p, In p (m_got m') -> lex_leb n (p_name p) = false.
Proof.
  intros C l. induction l as [|a l IH] using rev_ind; intros m m' R G Rd I F E p Hp; [injection E as <-; auto|].
  apply Forall_app in F as F12. destruct F12 as [F1 F2]. pose proof E as E0.
  rewrite execs_app in E. destruct (execs w m l) as [m1|] eqn:E1; [|discriminate].
  specialize (IH m m1 R G Rd I F1 E1). cbn [execs] in E. destruct (exec w m1 a) as [m2|] eqn:E2; [|discriminate]. injection E as ->.
  destruct (C22_damaged_refuted w m n b C R G Rd) as [_ X]. destruct (X _ _ F E0) as [_ Y].
  apply exec_trans in E2; [|now inversion F2]. destruct E2; ssimp_in Hp; auto.
  - cbn in Hp. destruct (mget (s_out s) t); auto.
  - apply in_app_iff in Hp as [Hp|[<-|[]]]; auto. apply (Y _ p0 eq_refl). cbn. apply in_or_app. right. now left.
Qed.

(** FALSE claim: a delivery that failed for lack of room is over with the answer to the
    sender.  If the cut is not between two fields, the file stays for good, and the
    recipient never again receives anything stored after it, however often they
    connect and however much room there is by then; what they received at any time
    was stored before. *)
Theorem C89_lockout_refuted w m i k n d m1 l m' : clock w = Increasing -> reachable w m ->
  nth_error (m_pending m) i = Some (n, d) -> salvage d k = None -> exec w m (AFull i (Some k)) = Some m1 ->
  Forall act_ok l -> execs w m1 l = Some m' ->
  mget (m_disk m') n = Some (firstn k (enc DiskMessage_codec d)) /\
  (forall p, In p (m_got m') -> lex_leb n (p_name p) = false) /\
  (forall n' d', In (n', d') (m_done m') -> ~ In (n', d') (m_done m) -> forall p, In p (m_got m') -> p_name p <> n').
Proof.
  intros C R P Sv E F El. assert (C' : clock w <> AnyTime) by congruence. pose proof (inv_disk_reach w m C' R) as D.
  destruct (pending_fresh w m i n d C' D P) as (U & _ & G & Ok & _).
  assert (R1 : reachable w m1).
  { destruct R as (l0 & F0 & E0). exists (l0 ++ [AFull i (Some k)]). split; [apply Forall_app; split; auto; constructor; [exact Logic.I|constructor]|].
    rewrite execs_app, E0. cbn [execs]. now rewrite E. }
  assert (R' : reachable w m').
  { destruct R1 as (l0 & F0 & E0). exists (l0 ++ l). split; [apply Forall_app; auto|]. now rewrite execs_app, E0. }
  pose proof E as Ex. cbn [exec] in Ex. rewrite P in Ex. destruct (m_there m && match clock w with Increasing => later m n | _ => true end) eqn:Lt; [|discriminate].
  injection Ex as <-. rewrite C in Lt. apply andb_true_iff in Lt as [_ Lt].
  set (b := firstn k (enc DiskMessage_codec d)) in *.
  assert (Gb : mget (mset (m_disk m) n b) n = Some b) by (rewrite mget_mset; destruct (eqb_spec n n) as [_|X]; [reflexivity|destruct (X eq_refl)]).
  assert (Rd : read_msg b = None) by (unfold b; now rewrite read_cut).
  match type of R1 with reachable _ ?x => set (m1 := x) in * end.
  assert (I : forall p, In p (m_got m1) -> lex_leb n (p_name p) = false).
  { intros p Hp. apply (later_In m n Lt). unfold used. apply in_or_app.
    destruct (if_got m (inv_flow_reach w m C' R) p Hp) as [X|X]; [left; apply (in_map fst) in X; exact X|now right]. }
  assert (Gt : forall p, In p (m_got m') -> lex_leb n (p_name p) = false) by exact (got_before w n b C l m1 m' R1 Gb Rd I F El).
  split; [|split; [exact Gt|]].
  - destruct (C22_damaged_refuted w m1 n b C R1 Gb Rd) as [_ X]. exact (proj1 (X l m' F El)).
  - intros n' d' Dn Nd p Hp Ep. specialize (Gt p Hp). rewrite Ep in Gt.
    assert (K : In n (m_partial m') /\ forall x y, In (x, y) (m_done m') -> In (x, y) (m_done m) \/ before n x).
    { assert (Base1 : In n (m_partial m1) /\ forall x y, In (x, y) (m_done m1) -> In (x, y) (m_done m) \/ before n x).
      { split; [cbn; apply in_or_app; right; now left|]. intros x y X. now left. }
      refine (execs_inv w (fun z => In n (m_partial z) /\ forall x y, In (x, y) (m_done z) -> In (x, y) (m_done m) \/ before n x) _ l m1 m' F El Base1).
      intros z z' [Z1 Z2] T. destruct T; ssimp; auto.
      - split; auto. intros x y X. apply in_app_iff in X as [X|[[= <- <-]|[]]]; auto. right. apply (H1 C). unfold used. apply in_or_app. now right.
      - split; auto. apply in_or_app. now left.
      - split; auto. apply in_or_app. now left.
      - destruct (mget (s_out s) t); auto. }
    destruct K as [_ K]. destruct (K n' d' Dn) as [X|X]; [contradiction|]. apply before_le in X. congruence.
Qed.
Print Assumptions C89_lockout_refuted.

(** The mailbox with nothing but a cut file, and the session that finds it. *)
Definition torn (b : bytes) : mail := mkMail [([49], b)] true [] None [] [[49]] [] [].
Definition find_it : list action := [AOnline; AWorker; AWorker; AWorker; AWorker; AWorker].
Definition hand_over : list action := [AWorker; ANotify; ANotify; ANotify; AWriter; AReceive].
Definition found (b : bytes) (k : worker) : mail :=
  mkMail [([49], b)] true [] (Some (mkSessn false k [[49]] [] NIdle (map N.of_nat (seq 0 depth)) [] [] false [] [] [] HIdle false [] [] false)) [] [[49]] [] [].
Lemma finds b : execs careful (torn b) find_it =
  Some (found b (match read_msg b with None => WSend Bad [] | Some d => WSend (Good [49] d) [] end)).
Proof. reflexivity. Qed.

Lemma tears d k : execs careful empty_mail [ACheck [49] d; AFull 0 (Some k)] = Some (torn (firstn k (enc DiskMessage_codec d))).
Proof.
  cbn [execs]. change (exec careful empty_mail (ACheck [49] d)) with (Some (mkMail [] true [([49], d)] None [] [] [] [])).
  cbv beta iota. unfold exec. cbn [nth_error m_pending m_there m_disk m_partial]. set (b := firstn k (enc DiskMessage_codec d)). clearbody b. reflexivity.
Qed.
Lemma hands b d : exists m, execs careful (found b (WSend (Good [49] d) [])) hand_over = Some m /\ m_done m = [] /\ map p_msg (m_got m) = [d].
Proof. eexists. split; [vm_compute; reflexivity|]. split; reflexivity. Qed.

(** FALSE claim: a message whose delivery the server reported as failed does not reach
    the recipient, or reaches them as it was sent.  For every cut between two fields
    the recipient receives what is left of it: at worst an empty message from the
    identity that consists of zeros, and at best the message without its mark. *)
Theorem C89_received_refuted d k d' : DiskMessage_ok 0 d -> salvage d k = Some d' ->
  exists m, reachable careful m /\ m_done m = [] /\ map p_msg (m_got m) = [d'].
Proof.
  intros Ok Sv. rewrite <- (read_cut d k Ok) in Sv.
  pose proof (tears d k) as E1. pose proof (finds (firstn k (enc DiskMessage_codec d))) as E2. rewrite Sv in E2.
  destruct (hands (firstn k (enc DiskMessage_codec d)) d') as (m & E3 & X). exists m. split; [|exact X].
  exists ([ACheck [49] d; AFull 0 (Some k)] ++ find_it ++ hand_over). split.
  - apply Forall_app. split; [constructor; [exact Ok|constructor; [exact Logic.I|constructor]]|]. repeat constructor.
  - rewrite execs_app, E1, execs_app, E2. exact E3.
Qed.
Print Assumptions C89_received_refuted.

(** * Cases *)

(** [bye] has three bytes of payload and carries the mark: cut at 48 it loses only the
    mark, at 0 everything. *)
Example cut_case : map (fun k => read_msg (firstn k (enc DiskMessage_codec bye))) [0; 31; 32; 40; 44; 45; 47; 48; 51; 52]%nat =
  [Some (mkDiskMessage (repeat 0 32) 0 [] false); None; Some (mkDiskMessage (repeat 2 32) 0 [] false);
   Some (mkDiskMessage (repeat 2 32) 6 [] false); Some (mkDiskMessage (repeat 2 32) 6 [] false); None; None;
   Some (mkDiskMessage (repeat 2 32) 6 [98; 121; 101] false); None; Some bye].
Proof. vm_compute. reflexivity. Qed.
Example received_case : DiskMessage_ok 0 bye /\ salvage bye 48 = Some (mkDiskMessage (repeat 2 32) 6 [98; 121; 101] false) /\ DiskMessage_Cleartext bye = true.
Proof. split; [exact bye_ok|]. split; reflexivity. Qed.

(** One message is stored and received; the next does not fit on the disk; there is
    room again for the third, which is stored and never received. *)
Definition quick : list action := find_it ++ hand_over ++ [AWorker; AAck 0; AHandler; AHandler; AHandler; AHandler].
Example lockout_case : exists m m1 m', reachable careful m /\ nth_error (m_pending m) 0 = Some ([50], hello) /\ salvage hello 45 = None /\
  exec careful m (AFull 0 (Some 45%nat)) = Some m1 /\ mget (m_disk m1) [50] <> None /\
  execs careful m1 ([ACheck [51] bye; AWrite 0; AWorker; AWorker; AWorker; AWorker; AWorker; AWorker; AWorker; AWorker; ANotify; AOffline;
    AOnline; AWorker; AWorker; AWorker; AWorker; AWorker; AWorker; AWorker; AWorker; AWorker; ANotify]) = Some m' /\
  In ([51], bye) (m_done m') /\ map p_name (m_got m') = [[49]] /\ (exists s, m_sess m' = Some s /\ s_closed s = true).
Proof.
  eexists. eexists. eexists. split; [|split; [|split; [|split; [|split; [|split; [|split; [|split]]]]]]].
  - exists (deliver1 ++ quick ++ [ACheck [50] hello]). split; [apply mild_ok; reflexivity|vm_compute; reflexivity].
  - reflexivity.
  - reflexivity.
  - vm_compute. reflexivity.
  - vm_compute. discriminate.
  - vm_compute. reflexivity.
  - vm_compute. auto.
  - reflexivity.
  - eexists. split; reflexivity.
Qed.
(** Without room for even the name, nothing is left. *)
Example frame_case : exists m m', reachable careful m /\ exec careful m (AFull 0 None) = Some m' /\ m_disk m' = [] /\ m_pending m' = [].
Proof.
  eexists. eexists. split; [|split; [|split]].
  - exists [ACheck [49] hello]. split; [apply mild_ok; reflexivity|vm_compute; reflexivity].
  - vm_compute. reflexivity.
  - reflexivity.
  - reflexivity.
Qed.
