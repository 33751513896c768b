(** C44: the client proceeds only on a complete and consistent welcome. *)
From Verif Require Import Base IniModel XdrModel XdrProofs RpcModel RpcProofs StrconvModel TagStackModel TagStackProofs SessionModel SessionProofs SessionProps SizeProofs WelcomeModel.
Local Open Scope N_scope.

(** * What a welcome says *)

(** The value of the last property with a key. *)
Definition last_value (k : bytes) (l : list ServerProperty) : option bytes :=
  match filter (fun p => eqb (ServerProperty_Key p) k) (rev l) with
  | p :: _ => Some (ServerProperty_Value p)
  | [] => None
  end.

(** A property the client understands: it has a known name, and a value of the kind
    the name asks for. *)
Definition understood (p : ServerProperty) : Prop :=
  let k := ServerProperty_Key p in
  let x := ServerProperty_Value p in
  (k = bs "motd") \/
  ((k = bs "tagdepth" \/ k = bs "servertime") /\ parse_int x <> None) \/
  ((k = bs "maxchunksize" \/ k = bs "maxmsgsize" \/ k = bs "maxattachmentsize") /\ parse_uint x <> None) \/
  (k = bs "directory" /\ parse_bool x <> None).

(** What a welcome with these properties says: the depth of the tag stack, the time,
    the three sizes and whether there is a directory.  The last is optional. *)
Record says (l : list ServerProperty) (td pt : Z) (cs ms as_ : N) (dir : bool) : Prop := {
  says_all : Forall understood l;
  says_td : obind (last_value (bs "tagdepth") l) parse_int = Some td;
  says_pt : obind (last_value (bs "servertime") l) parse_int = Some pt;
  says_cs : obind (last_value (bs "maxchunksize") l) parse_uint = Some cs;
  says_ms : obind (last_value (bs "maxmsgsize") l) parse_uint = Some ms;
  says_as : obind (last_value (bs "maxattachmentsize") l) parse_uint = Some as_;
  says_dir : dir = match last_value (bs "directory") l with
                   | Some x => match parse_bool x with Some b => b | None => false end
                   | None => false
                   end
}.

Lemma last_snoc k l p : last_value k (l ++ [p]) =
  if eqb (ServerProperty_Key p) k then Some (ServerProperty_Value p) else last_value k l.
Proof.
  unfold last_value. rewrite rev_app_distr. cbn [rev app filter].
  now destruct (eqb (ServerProperty_Key p) k).
Qed.

Lemma see_all_snoc l p : forall v, see_all v (l ++ [p]) = obind (see_all v l) (fun v' => see v' p).
Proof.
  induction l as [|q l IH]; intros v; cbn [app see_all obind].
  - now destruct (see v p).
  - destruct (see v q); cbn [obind]; auto.
Qed.

Definition or_else {A} (o : option A) (d : A) : A := match o with Some x => x | None => d end.

(** The local variables after the loop. *)
Lemma see_all_spec l v : see_all seen0 l = Some v <->
  Forall understood l /\
  v = mkSeen (or_else (obind (last_value k_tagdepth l) parse_int) (-1)%Z) (or_else (obind (last_value k_time l) parse_int) (-1)%Z)
        (or_else (obind (last_value k_chunk l) parse_uint) 0) (or_else (obind (last_value k_msg l) parse_uint) 0)
        (or_else (obind (last_value k_attach l) parse_uint) 0) (or_else (obind (last_value k_directory l) parse_bool) false).
Proof.
  revert v. induction l as [|p l IH] using rev_ind; intros v.
  - cbn. split; [intros [= <-]; auto|]. now intros [_ ->].
  - rewrite see_all_snoc, Forall_app, !last_snoc.
    set (td := or_else (obind (last_value k_tagdepth l) parse_int) (-1)%Z) in *.
    set (pt := or_else (obind (last_value k_time l) parse_int) (-1)%Z) in *.
    set (cs := or_else (obind (last_value k_chunk l) parse_uint) 0) in *.
    set (ms := or_else (obind (last_value k_msg l) parse_uint) 0) in *.
    set (as_ := or_else (obind (last_value k_attach l) parse_uint) 0) in *.
    set (dir := or_else (obind (last_value k_directory l) parse_bool) false) in *.
    assert (U : Forall understood [p] <-> understood p) by (split; [now inversion 1|auto]). rewrite U. clear U.
    assert (X : forall v', see_all seen0 l = Some v' <-> Forall understood l /\ v' = mkSeen td pt cs ms as_ dir) by exact IH.
    assert (Y : obind (see_all seen0 l) (fun v' => see v' p) = Some v <->
                Forall understood l /\ see (mkSeen td pt cs ms as_ dir) p = Some v).
    { destruct (see_all seen0 l) as [v'|]; cbn [obind].
      - destruct (proj1 (X v') eq_refl) as [F ->]. tauto.
      - split; [discriminate|]. intros [F _]. assert (Z : None = Some (mkSeen td pt cs ms as_ dir)) by now apply X. discriminate. }
    rewrite Y. clear X Y IH.
    assert (Z : see (mkSeen td pt cs ms as_ dir) p = Some v <-> understood p /\
      v = mkSeen (or_else (obind (if eqb (ServerProperty_Key p) k_tagdepth then Some (ServerProperty_Value p) else last_value k_tagdepth l) parse_int) (-1)%Z)
                 (or_else (obind (if eqb (ServerProperty_Key p) k_time then Some (ServerProperty_Value p) else last_value k_time l) parse_int) (-1)%Z)
                 (or_else (obind (if eqb (ServerProperty_Key p) k_chunk then Some (ServerProperty_Value p) else last_value k_chunk l) parse_uint) 0)
                 (or_else (obind (if eqb (ServerProperty_Key p) k_msg then Some (ServerProperty_Value p) else last_value k_msg l) parse_uint) 0)
                 (or_else (obind (if eqb (ServerProperty_Key p) k_attach then Some (ServerProperty_Value p) else last_value k_attach l) parse_uint) 0)
                 (or_else (obind (if eqb (ServerProperty_Key p) k_directory then Some (ServerProperty_Value p) else last_value k_directory l) parse_bool) false)).
    { destruct p as [k x r]. unfold see, understood. cbn [ServerProperty_Key ServerProperty_Value v_td v_pt v_cs v_ms v_as v_dir].
      change (bs "motd") with k_motd. change (bs "tagdepth") with k_tagdepth. change (bs "servertime") with k_time.
      change (bs "maxchunksize") with k_chunk. change (bs "maxmsgsize") with k_msg. change (bs "maxattachmentsize") with k_attach.
      change (bs "directory") with k_directory.
      assert (D : NoDup [k_tagdepth; k_time; k_chunk; k_msg; k_attach; k_motd; k_directory]).
      { repeat constructor; cbn; intuition discriminate. }
      fold td pt cs ms as_ dir.
      destruct (eqb_spec k k_tagdepth) as [->|n1].
      { replace (eqb k_tagdepth k_time) with false by reflexivity. replace (eqb k_tagdepth k_chunk) with false by reflexivity.
        replace (eqb k_tagdepth k_msg) with false by reflexivity. replace (eqb k_tagdepth k_attach) with false by reflexivity.
        replace (eqb k_tagdepth k_directory) with false by reflexivity. cbn [obind]. fold pt cs ms as_ dir.
        destruct (parse_int x) as [z|] eqn:E; cbn [obind or_else].
        - split; [intros [= <-]; split; [right; left; split; auto; discriminate|reflexivity]|]. now intros [_ ->].
        - split; [discriminate|]. intros [[Q|[[_ Q]|[[[Q|[Q|Q]] _]|[Q _]]]] _]; try discriminate Q. congruence. }
      destruct (eqb_spec k k_time) as [->|n2].
      { replace (eqb k_time k_chunk) with false by reflexivity.
        replace (eqb k_time k_msg) with false by reflexivity. replace (eqb k_time k_attach) with false by reflexivity.
        replace (eqb k_time k_directory) with false by reflexivity. cbn [obind]. fold td cs ms as_ dir.
        destruct (parse_int x) as [z|] eqn:E; cbn [obind or_else].
        - split; [intros [= <-]; split; [right; left; split; auto; discriminate|reflexivity]|]. now intros [_ ->].
        - split; [discriminate|]. intros [[Q|[[_ Q]|[[[Q|[Q|Q]] _]|[Q _]]]] _]; try discriminate Q. congruence. }
      destruct (eqb_spec k k_chunk) as [->|n3].
      { replace (eqb k_chunk k_msg) with false by reflexivity. replace (eqb k_chunk k_attach) with false by reflexivity.
        replace (eqb k_chunk k_directory) with false by reflexivity. cbn [obind]. fold td pt ms as_ dir.
        destruct (parse_uint x) as [z|] eqn:E; cbn [obind or_else].
        - split; [intros [= <-]; split; [right; right; left; split; auto; discriminate|reflexivity]|]. now intros [_ ->].
        - split; [discriminate|]. intros [[Q|[[[Q|Q] _]|[[_ Q]|[Q _]]]] _]; try discriminate Q. congruence. }
      destruct (eqb_spec k k_msg) as [->|n4].
      { replace (eqb k_msg k_attach) with false by reflexivity.
        replace (eqb k_msg k_directory) with false by reflexivity. cbn [obind]. fold td pt cs as_ dir.
        destruct (parse_uint x) as [z|] eqn:E; cbn [obind or_else].
        - split; [intros [= <-]; split; [right; right; left; split; auto; discriminate|reflexivity]|]. now intros [_ ->].
        - split; [discriminate|]. intros [[Q|[[[Q|Q] _]|[[_ Q]|[Q _]]]] _]; try discriminate Q. congruence. }
      destruct (eqb_spec k k_attach) as [->|n5].
      { replace (eqb k_attach k_directory) with false by reflexivity. cbn [obind]. fold td pt cs ms dir.
        destruct (parse_uint x) as [z|] eqn:E; cbn [obind or_else].
        - split; [intros [= <-]; split; [right; right; left; split; auto; discriminate|reflexivity]|]. now intros [_ ->].
        - split; [discriminate|]. intros [[Q|[[[Q|Q] _]|[[_ Q]|[Q _]]]] _]; try discriminate Q. congruence. }
      destruct (eqb_spec k k_motd) as [->|n6].
      { replace (eqb k_motd k_directory) with false by reflexivity. fold td pt cs ms as_ dir.
        split; [intros [= <-]; split; auto|]. now intros [_ ->]. }
      destruct (eqb_spec k k_directory) as [->|n7].
      { cbn [obind]. fold td pt cs ms as_.
        destruct (parse_bool x) as [z|] eqn:E; cbn [obind or_else].
        - split; [intros [= <-]; split; [right; right; right; split; auto; discriminate|reflexivity]|]. now intros [_ ->].
        - split; [discriminate|]. intros [[Q|[[[Q|Q] _]|[[[Q|[Q|Q]] _]|[_ Q]]]] _]; try discriminate Q. congruence. }
      split; [discriminate|]. intros [[Q|[[[Q|Q] _]|[[[Q|[Q|Q]] _]|[Q _]]]] _]; congruence. }
    rewrite Z. tauto.
Qed.

Lemma obind_last_none {A} (f : bytes -> option A) k l d : or_else (obind (last_value k l) f) d <> d ->
  obind (last_value k l) f = Some (or_else (obind (last_value k l) f) d).
Proof. now destruct (obind (last_value k l) f). Qed.

Lemma says_iff l td pt cs ms as_ dir : td <> (-1)%Z -> pt <> (-1)%Z -> cs <> 0 -> ms <> 0 -> as_ <> 0 ->
  says l td pt cs ms as_ dir <-> see_all seen0 l = Some (mkSeen td pt cs ms as_ dir).
Proof.
  intros T P C M A. rewrite see_all_spec. split.
  - intros [S1 S2 S3 S4 S5 S6 S7]. split; auto.
    unfold k_tagdepth, k_time, k_chunk, k_msg, k_attach, k_directory. rewrite S2, S3, S4, S5, S6. cbn [or_else]. f_equal.
    rewrite S7. destruct (last_value (bs "directory") l) as [x|]; [|reflexivity]. cbn [obind]. now destruct (parse_bool x).
  - intros [F E].
    pose proof (f_equal v_td E) as E1. pose proof (f_equal v_pt E) as E2. pose proof (f_equal v_cs E) as E3.
    pose proof (f_equal v_ms E) as E4. pose proof (f_equal v_as E) as E5. pose proof (f_equal v_dir E) as E6.
    cbn [v_td v_pt v_cs v_ms v_as v_dir] in *. clear E. constructor; auto.
    + rewrite E1. apply obind_last_none. now rewrite <- E1.
    + rewrite E2. apply obind_last_none. now rewrite <- E2.
    + rewrite E3. apply obind_last_none. now rewrite <- E3.
    + rewrite E4. apply obind_last_none. now rewrite <- E4.
    + rewrite E5. apply obind_last_none. now rewrite <- E5.
    + rewrite E6. unfold k_directory. destruct (last_value (bs "directory") l) as [x|]; [|reflexivity]. cbn [obind]. now destruct (parse_bool x).
Qed.

(** A message of the given name with a payload, whatever follows it. *)
Definition carries {A} (cmd : bytes) (c : codec A) (b : bytes) (x : A) : Prop :=
  exists m r r', dec Message_codec 0 b = Some (m, r) /\ Message_Command m = cmd /\ dec c 0 r = Some (x, r').

(** The welcome is of the right version and complete, and its values are in range. *)
Definition consistent (w : Welcome) (td pt : Z) (cs ms as_ : N) (dir : bool) : Prop :=
  Welcome_Version w = 9%Z /\ says (Welcome_Properties w) td pt cs ms as_ dir /\
  td <> (-1)%Z /\ (td <= 32)%Z /\ pt <> (-1)%Z /\ as_ <> 0 /\ cs <> 0 /\ cs <= ms.

Lemma phase_welcome b w : carries (bs "welcome") Welcome_codec b w ->
  welcome_phase b = if negb (Welcome_Version w =? 9)%Z then WRefused
                    else match see_all seen0 (Welcome_Properties w) with None => WRefused | Some v => go_on v w end.
Proof.
  intros (m & r & r' & D & C & D'). unfold welcome_phase. rewrite D, C. change (eqb (bs "welcome") cmd_welcome) with true. cbv iota.
  now rewrite D'.
Qed.

Lemma phase_cases b :
  (exists w, carries (bs "welcome") Welcome_codec b w) \/
  (exists u, carries (bs "unwelcome") Unwelcome_codec b u /\ welcome_phase b = WOffline (Unwelcome_Reason u)) \/
  welcome_phase b = WRefused /\ (forall w, ~ carries (bs "welcome") Welcome_codec b w) /\ (forall u, ~ carries (bs "unwelcome") Unwelcome_codec b u).
Proof.
  unfold welcome_phase, carries. destruct (dec Message_codec 0 b) as [[m r]|] eqn:D.
  2: { right. right. split; auto. split; intros w (m' & r' & r'' & X & _); discriminate. }
  destruct (eqb_spec (Message_Command m) cmd_welcome) as [C|C].
  - destruct (dec Welcome_codec 0 r) as [[w r']|] eqn:E.
    + left. exists w, m, r, r'. auto.
    + right. right. split; auto. split; intros w (m' & r' & r'' & X & Y & Z); injection X as <- <-; [congruence|].
      rewrite C in Y. discriminate Y.
  - destruct (eqb_spec (Message_Command m) cmd_unwelcome) as [C'|C'].
    + destruct (dec Unwelcome_codec 0 r) as [[u r']|] eqn:E.
      * right. left. exists u. split; auto. exists m, r, r'. auto.
      * right. right. split; auto. split; intros w (m' & r' & r'' & X & Y & Z); injection X as <- <-; [|congruence].
        rewrite C' in Y. discriminate Y.
    + right. right. split; auto. split; intros w (m' & r' & r'' & X & Y & Z); injection X as <- <-; auto.
Qed.

Lemma carries_fun {A} cmd (c : codec A) b x y : carries cmd c b x -> carries cmd c b y -> x = y.
Proof. intros (m & r & r' & D & C & E) (m2 & r2 & r2' & D2 & C2 & E2). congruence. Qed.
Lemma carries_one {A B} c1 c2 (c : codec A) (d : codec B) b x y : c1 <> c2 -> carries c1 c b x -> carries c2 d b y -> False.
Proof. intros N (m & r & r' & D & C & E) (m2 & r2 & r2' & D2 & C2 & E2). congruence. Qed.

Lemma ts_new_nonneg z : (0 <= z)%Z -> exists t, ts_new z = Ok t.
Proof. intros H. unfold ts_new. destruct (Z.ltb_spec z 0); [lia|]. eauto. Qed.

Lemma go_on_online v w o : (exists l, go_on v w = o /\ o = WOnline l w) <->
  (0 <= v_td v <= 32)%Z /\ v_pt v <> (-1)%Z /\ v_as v <> 0 /\ v_cs v <> 0 /\ v_cs v <= v_ms v /\
  exists t, ts_new (v_td v) = Ok t /\ o = WOnline (mkLimits t (Z.to_nat (v_td v)) (v_cs v) (v_ms v) (v_as v) (v_dir v)) w.
Proof.
  unfold go_on. 
  destruct (Z.eqb_spec (v_td v) (-1)); [split; [intros (l & <- & ?); discriminate|intros (? & ? & ? & ? & ? & _); lia]|].
  destruct (Z.ltb_spec 32 (v_td v)); [split; [intros (l & <- & ?); discriminate|intros (? & ? & ? & ? & ? & _); lia]|].
  destruct (Z.eqb_spec (v_pt v) (-1)); [split; [intros (l & <- & ?); discriminate|intros (? & ? & ? & ? & ? & _); lia]|].
  destruct (N.eqb_spec (v_as v) 0); [split; [intros (l & <- & ?); discriminate|intros (? & ? & ? & ? & ? & _); lia]|].
  destruct (N.eqb_spec (v_cs v) 0); [split; [intros (l & <- & ?); discriminate|intros (? & ? & ? & ? & ? & _); lia]|].
  destruct (N.eqb_spec (v_ms v) 0); [split; [intros (l & <- & ?); discriminate|intros (? & ? & ? & ? & ? & _); lia]|].
  destruct (N.ltb_spec (v_ms v) (v_cs v)); [split; [intros (l & <- & ?); discriminate|intros (? & ? & ? & ? & ? & _); lia]|].
  destruct (ts_new (v_td v)) as [t|e|] eqn:T.
  - split.
    + intros (l & <- & E). injection E as <-.
      assert (0 <= v_td v)%Z by (unfold ts_new in T; destruct (Z.ltb_spec (v_td v) 0); [discriminate|auto]).
      split; [lia|]. do 4 (split; [assumption|]). eauto.
    + intros (A & B & C & D & F & t' & T' & ->). injection T' as <-. eauto.
  - unfold ts_new in T. destruct (v_td v <? 0)%Z; discriminate.
  - split; [intros (l & <- & ?); discriminate|]. intros (A & B & C & D & F & t' & T' & ->). discriminate.
Qed.

Lemma go_on_panic v w : go_on v w = WPanic <->
  (v_td v < -1)%Z /\ v_pt v <> (-1)%Z /\ v_as v <> 0 /\ v_cs v <> 0 /\ v_cs v <= v_ms v.
Proof.
  unfold go_on.
  destruct (Z.eqb_spec (v_td v) (-1)); [split; [discriminate|lia]|].
  destruct (Z.ltb_spec 32 (v_td v)); [split; [discriminate|lia]|].
  destruct (Z.eqb_spec (v_pt v) (-1)); [split; [discriminate|lia]|].
  destruct (N.eqb_spec (v_as v) 0); [split; [discriminate|lia]|].
  destruct (N.eqb_spec (v_cs v) 0); [split; [discriminate|lia]|].
  destruct (N.eqb_spec (v_ms v) 0); [split; [discriminate|lia]|].
  destruct (N.ltb_spec (v_ms v) (v_cs v)); [split; [discriminate|lia]|].
  unfold ts_new. destruct (Z.ltb_spec (v_td v) 0); split; intros; try discriminate; try lia; auto.
Qed.

(** * C44 *)

(** The client goes online exactly on a welcome of the right version in which every
    property is understood, depth, time and sizes are given and in range, and then
    with exactly the last value given for each. *)
Theorem C44_online b l w : welcome_phase b = WOnline l w <->
  carries (bs "welcome") Welcome_codec b w /\
  exists td pt cs ms as_ dir, consistent w td pt cs ms as_ dir /\ (0 <= td)%Z /\
    ts_new td = Ok (n_tags l) /\ l = mkLimits (n_tags l) (Z.to_nat td) cs ms as_ dir.
Proof.
  split.
  - intros H. destruct (phase_cases b) as [[w' C]|[(u & _ & E)|[E _]]]; [|congruence|congruence].
    rewrite (phase_welcome b w' C) in H. destruct (Z.eqb_spec (Welcome_Version w') 9) as [V|]; [cbn [negb] in H|discriminate].
    destruct (see_all seen0 (Welcome_Properties w')) as [v|] eqn:S; [|discriminate].
    assert (w' = w).
    { revert H. unfold go_on. repeat match goal with |- (if ?c then _ else _) = _ -> _ => destruct c; [discriminate|] end.
      destruct (ts_new (v_td v)); intros H; congruence. }
    subst w'. split; auto.
    assert (G : exists l0, go_on v w = WOnline l w /\ WOnline l w = WOnline l0 w) by eauto.
    apply go_on_online in G as (G1 & G2 & G3 & G4 & G5 & t & T & G6). injection G6 as ->.
    exists (v_td v), (v_pt v), (v_cs v), (v_ms v), (v_as v), (v_dir v). cbn [n_tags].
    split; [|split; [lia|auto]]. unfold consistent. split; auto. split; [|repeat split; auto; lia].
    apply says_iff; try lia. rewrite S. now destruct v.
  - intros (C & td & pt & cs & ms & as_ & dir & (V & S & T1 & T2 & P & A & Cs & M) & T0 & T & L).
    rewrite (phase_welcome b w C), V. cbn [Z.eqb Pos.eqb negb].
    apply says_iff in S; try lia. rewrite S.
    pose proof (proj2 (go_on_online (mkSeen td pt cs ms as_ dir) w (WOnline l w))) as G. cbn [v_td v_pt v_cs v_ms v_as v_dir] in G.
    destruct G as (l0 & G & _); [|exact G]. split; [lia|]. repeat (split; [assumption|]). exists (n_tags l). split; auto. now rewrite <- L.
Qed.
Print Assumptions C44_online.

(** It crashes exactly if everything is right except that the depth is less than
    minus one. *)
Theorem C44_panic b : welcome_phase b = WPanic <->
  exists w td pt cs ms as_ dir, carries (bs "welcome") Welcome_codec b w /\ consistent w td pt cs ms as_ dir /\ (td < -1)%Z.
Proof.
  split.
  - intros H. destruct (phase_cases b) as [[w C]|[(u & _ & E)|[E _]]]; [|congruence|congruence].
    rewrite (phase_welcome b w C) in H. destruct (Z.eqb_spec (Welcome_Version w) 9) as [V|]; [cbn [negb] in H|discriminate].
    destruct (see_all seen0 (Welcome_Properties w)) as [v|] eqn:S; [|discriminate].
    apply go_on_panic in H as (G1 & G2 & G3 & G4 & G5).
    exists w, (v_td v), (v_pt v), (v_cs v), (v_ms v), (v_as v), (v_dir v). split; auto. split; [|lia].
    unfold consistent. split; auto. split; [|repeat split; auto; lia]. apply says_iff; try lia. rewrite S. now destruct v.
  - intros (w & td & pt & cs & ms & as_ & dir & C & (V & S & T1 & T2 & P & A & Cs & M) & T0).
    rewrite (phase_welcome b w C), V. cbn [Z.eqb Pos.eqb negb].
    apply says_iff in S; try lia. rewrite S. apply go_on_panic. cbn [v_td v_pt v_cs v_ms v_as v_dir]. repeat split; auto; lia.
Qed.
Print Assumptions C44_panic.

(** Only a refusal by the server makes the client stay offline; every other outcome
    is an error after which it may connect again. *)
Theorem C44_offline b reason : welcome_phase b = WOffline reason <->
  exists u, carries (bs "unwelcome") Unwelcome_codec b u /\ reason = Unwelcome_Reason u.
Proof.
  destruct (phase_cases b) as [[w C]|[(u & C & E)|(E & N1 & N2)]].
  - rewrite (phase_welcome b w C). split.
    + unfold go_on. destruct (negb (Welcome_Version w =? 9)%Z); [discriminate|].
      destruct (see_all seen0 (Welcome_Properties w)) as [v|]; [|discriminate].
      repeat match goal with |- (if ?c then _ else _) = _ -> _ => destruct c; [discriminate|] end. destruct (ts_new (v_td v)); discriminate.
    + intros (u & C' & _). exfalso. eapply (carries_one (bs "welcome") (bs "unwelcome")); eauto. discriminate.
  - rewrite E. split; [intros [= <-]; eauto|]. intros (u' & C' & ->). now rewrite (carries_fun _ _ _ _ _ C C').
  - rewrite E. split; [discriminate|]. intros (u' & C' & _). destruct (N2 u' C').
Qed.
Print Assumptions C44_offline.

(** The refusal a server writes is what the client shows, and it keeps the client out. *)
Theorem C44_unwelcome reason : len reason <= 2 ^ 31 - 4 ->
  welcome_phase (server_unwelcome reason) = WOffline reason.
Proof.
  intros M. apply C44_offline. exists (mkUnwelcome protocol_version reason). split; [|reflexivity].
  unfold carries, server_unwelcome.
  exists (mkMessage cmd_unwelcome 0 false 0), (enc Unwelcome_codec (mkUnwelcome protocol_version reason)), [].
  split; [|split; [reflexivity|]].
  - apply good_Message. repeat split; try (vm_compute; congruence). now left.
  - rewrite <- (app_nil_r (enc Unwelcome_codec _)). apply good_Unwelcome. unfold Unwelcome_ok.
    cbn [Unwelcome_Version Unwelcome_Reason]. split; [vm_compute; intuition congruence|].
    pose proof (padded_spec (N.of_nat (length reason))) as P. unfold padded in P.
    unfold str_ok, size_ok. rewrite ?P. unfold max_int32. unfold len in M.
    assert (X : (N.of_nat (length reason) + 3) / 4 <= (2 ^ 31 - 1) / 4) by (apply N.div_le_mono; lia).
    change ((2 ^ 31 - 1) / 4) with 536870911 in X. lia.
Qed.
Print Assumptions C44_unwelcome.

(** * The two ends together *)

Lemma format_int_parse z : (- 2 ^ 63 <= z < 2 ^ 63)%Z -> parse_int (format_int z) = Some z.
Proof.
  intros H. unfold format_int. destruct (Z.ltb_spec z 0) as [L|L].
  - assert (B : Z.to_N (- z) < 2 ^ 64) by (change (2 ^ 64) with (Z.to_N (2 ^ 64)); apply Z2N.inj_lt; lia).
    destruct (format_digits _ B) as [NE D]. pose proof (format_parse _ B) as P. unfold parse_uint in P.
    destruct (format_uint (Z.to_N (- z))) as [|c r] eqn:F; [congruence|]. rewrite D in P. cbn [andb] in P.
    destruct (digits_value (c :: r) <? 2 ^ 64); [|discriminate]. injection P as P.
    unfold parse_int. change (eqb 45 43) with false. change (eqb 45 45) with true. cbv iota. rewrite D, P.
    assert (Y : Z.to_N (- z) <= 2 ^ 63) by (change (2 ^ 63) with (Z.to_N (2 ^ 63)); apply Z2N.inj_le; lia).
    apply N.leb_le in Y. rewrite Y. rewrite Z2N.id by lia. f_equal. lia.
  - rewrite format_parse_int; [now rewrite Z2N.id by lia|]. change (2 ^ 63) with (Z.to_N (2 ^ 63)). apply Z2N.inj_lt; lia.
Qed.

Lemma format_bool_parse b : parse_bool (format_bool b) = Some b.
Proof. now destruct b. Qed.

Definition sizes_ok (s : sets) : Prop := g_attach s < 2 ^ 64 /\ g_chunk s < 2 ^ 64 /\ g_msg s < 2 ^ 64.

Lemma small_str s : len s <= 100 -> str_ok 0 s.
Proof.
  intros H. unfold str_ok, len in *. split; [|auto]. pose proof (padded_bounds (N.of_nat (length s))) as P. unfold padded in P. unfold max_int32. lia.
Qed.
Lemma format_str n : str_ok 0 (format_uint n).
Proof. apply small_str. pose proof (len_format n). lia. Qed.

Lemma server_welcome_carries s now motd : len motd <= 2 ^ 31 - 4 ->
  carries (bs "welcome") Welcome_codec (server_welcome s now motd) (mkWelcome 9 0 (server_properties s now motd)).
Proof.
  intros M. unfold carries, server_welcome.
  exists (mkMessage cmd_welcome 0 false 0), (enc Welcome_codec (mkWelcome protocol_version 0 (server_properties s now motd))), [].
  split; [|split; [reflexivity|]].
  - apply good_Message. repeat split; try (vm_compute; congruence). now left.
  - rewrite <- (app_nil_r (enc Welcome_codec _)). apply good_Welcome. split; [vm_compute; intuition congruence|].
    split; [vm_compute; intuition congruence|]. split; [vm_compute; congruence|]. split; [now left|].
    unfold server_properties. cbn [Welcome_Properties].
    assert (K : forall k, In k [k_tagdepth; k_motd; k_attach; k_chunk; k_msg; k_time; k_directory] -> str_ok 0 k).
    { intros k H. apply small_str. cbn in H. decompose [or] H; subst; try contradiction; vm_compute; congruence. }
    repeat constructor; cbn [ServerProperty_Key ServerProperty_Value]; try apply format_str;
      try (apply small_str; vm_compute; congruence).
    + apply small_str. unfold format_int. pose proof (len_format (Z.to_N (- now))). pose proof (len_format (Z.to_N now)).
      destruct (now <? 0)%Z; rewrite ?len_cons; lia.
    + apply small_str. unfold format_bool. destruct (g_directory s); vm_compute; congruence.
    + pose proof (padded_spec (N.of_nat (length motd))) as P. unfold padded in P. rewrite P. unfold max_int32. unfold len in M.
      assert (X : (N.of_nat (length motd) + 3) / 4 <= (2 ^ 31 - 1) / 4) by (apply N.div_le_mono; lia).
      change ((2 ^ 31 - 1) / 4) with 536870911 in X. lia.
Qed.

(** What the client makes of the welcome of a server. *)
Theorem C44_server s now motd : sizes_ok s -> (- 2 ^ 63 <= now < 2 ^ 63)%Z -> len motd <= 2 ^ 31 - 4 ->
  (now <> (-1)%Z /\ g_attach s <> 0 /\ g_chunk s <> 0 /\ g_chunk s <= g_msg s ->
   exists t, ts_new 32 = Ok t /\ welcome_phase (server_welcome s now motd) =
     WOnline (mkLimits t 32 (g_chunk s) (g_msg s) (g_attach s) (g_directory s)) (mkWelcome 9 0 (server_properties s now motd))) /\
  (now = (-1)%Z \/ g_attach s = 0 \/ g_chunk s = 0 \/ g_msg s < g_chunk s ->
   welcome_phase (server_welcome s now motd) = WRefused).
Proof.
  intros (A & C & M) Hn Hm. rewrite (phase_welcome _ _ (server_welcome_carries s now motd Hm)).
  cbn [Welcome_Version Z.eqb Pos.eqb negb Welcome_Properties].
  assert (S : see_all seen0 (server_properties s now motd) = Some (mkSeen 32 now (g_chunk s) (g_msg s) (g_attach s) (g_directory s))).
  { unfold server_properties. cbn [see_all]. unfold see at 1. cbn [ServerProperty_Key ServerProperty_Value seen0 v_td v_pt v_cs v_ms v_as v_dir].
    change (eqb k_tagdepth k_tagdepth) with true. cbv iota. change (parse_int (format_uint 32)) with (Some 32%Z). cbn [obind].
    unfold see at 1. cbn [ServerProperty_Key ServerProperty_Value seen0 v_td v_pt v_cs v_ms v_as v_dir].
    change (eqb k_attach k_tagdepth) with false. change (eqb k_attach k_time) with false. change (eqb k_attach k_chunk) with false.
    change (eqb k_attach k_msg) with false. change (eqb k_attach k_attach) with true. cbv iota. rewrite format_parse by auto. cbn [obind].
    unfold see at 1. cbn [ServerProperty_Key ServerProperty_Value v_td v_pt v_cs v_ms v_as v_dir].
    change (eqb k_chunk k_tagdepth) with false. change (eqb k_chunk k_time) with false. change (eqb k_chunk k_chunk) with true. cbv iota.
    rewrite format_parse by auto. cbn [obind].
    unfold see at 1. cbn [ServerProperty_Key ServerProperty_Value v_td v_pt v_cs v_ms v_as v_dir].
    change (eqb k_msg k_tagdepth) with false. change (eqb k_msg k_time) with false. change (eqb k_msg k_chunk) with false.
    change (eqb k_msg k_msg) with true. cbv iota. rewrite format_parse by auto. cbn [obind].
    unfold see at 1. cbn [ServerProperty_Key ServerProperty_Value v_td v_pt v_cs v_ms v_as v_dir].
    change (eqb k_time k_tagdepth) with false. change (eqb k_time k_time) with true. cbv iota. rewrite format_int_parse by auto. cbn [obind].
    unfold see at 1. cbn [ServerProperty_Key ServerProperty_Value v_td v_pt v_cs v_ms v_as v_dir].
    change (eqb k_directory k_tagdepth) with false. change (eqb k_directory k_time) with false. change (eqb k_directory k_chunk) with false.
    change (eqb k_directory k_msg) with false. change (eqb k_directory k_attach) with false. change (eqb k_directory k_motd) with false.
    change (eqb k_directory k_directory) with true. cbv iota. rewrite format_bool_parse. cbn [obind].
    unfold see at 1. cbn [ServerProperty_Key ServerProperty_Value v_td v_pt v_cs v_ms v_as v_dir].
    change (eqb k_motd k_tagdepth) with false. change (eqb k_motd k_time) with false. change (eqb k_motd k_chunk) with false.
    change (eqb k_motd k_msg) with false. change (eqb k_motd k_attach) with false. change (eqb k_motd k_motd) with true. cbv iota. cbn [obind]. reflexivity. }
  rewrite S. split.
  - intros (H1 & H2 & H3 & H4). destruct (ts_new_nonneg 32 ltac:(lia)) as [t T]. exists t. split; auto.
    pose proof (proj2 (go_on_online (mkSeen 32 now (g_chunk s) (g_msg s) (g_attach s) (g_directory s)) (mkWelcome 9 0 (server_properties s now motd))
      (WOnline (mkLimits t 32 (g_chunk s) (g_msg s) (g_attach s) (g_directory s)) (mkWelcome 9 0 (server_properties s now motd))))) as G.
    cbn [v_td v_pt v_cs v_ms v_as v_dir] in G. destruct G as (l & G & _); [|exact G].
    split; [lia|]. do 4 (split; [assumption|]). exists t. split; auto.
  - intros H. unfold go_on. cbn [v_td v_pt v_cs v_ms v_as v_dir]. change (32 =? -1)%Z with false. change (32 <? 32)%Z with false. cbv iota.
    destruct (Z.eqb_spec now (-1)); [reflexivity|]. destruct (N.eqb_spec (g_attach s) 0); [reflexivity|].
    destruct (N.eqb_spec (g_chunk s) 0); [reflexivity|]. destruct (N.eqb_spec (g_msg s) 0); [reflexivity|].
    destruct (N.ltb_spec (g_msg s) (g_chunk s)); [reflexivity|]. lia.
Qed.
Print Assumptions C44_server.

(** * The settings of the server *)

Lemma parse_uint_small x n : parse_uint x = Some n -> n < 2 ^ 64.
Proof.
  unfold parse_uint. destruct x as [|c r]; [discriminate|]. destruct (forallb is_digit (c :: r)); [cbn [andb]|discriminate].
  destruct (N.ltb_spec (digits_value (c :: r)) (2 ^ 64)); [|discriminate]. now intros [= <-].
Qed.

(** The value of a setting of the first section, and what it stands for. *)
Definition configured (t : tables) (key : bytes) : option bytes :=
  match mget t [] with Some s => mget s key | None => None end.

(** Whatever is configured, the largest message is the built in one.  The other
    settings are as configured, or as built in where they are not; and anything but
    yes, no or token as the policy for new accounts is refused. *)
Theorem C44_settings content s : load_sets content default_sets = Some s ->
  g_msg s = 263168 /\ sizes_ok s /\
  exists t, parse content = Some t /\
    (forall x, configured t (bs "maxchunksize") = Some x -> parse_uint x = Some (g_chunk s)) /\
    (configured t (bs "maxchunksize") = None -> g_chunk s = 262144) /\
    (forall x, configured t (bs "maxattachmentsize") = Some x -> parse_uint x = Some (g_attach s)) /\
    (configured t (bs "maxattachmentsize") = None -> g_attach s = 10485760) /\
    (forall x, configured t (bs "createpolicy") = Some x -> g_policy s = x) /\
    (configured t (bs "createpolicy") = None -> g_policy s = bs "no") /\
    In (g_policy s) [bs "yes"; bs "no"; bs "token"].
Proof.
  unfold load_sets. destruct (parse content) as [t|]; [cbn [obind]|discriminate].
  destruct (ini_bool t [] (bs "allowidentify") (g_identify default_sets)) as [i|]; [cbn [obind]|discriminate].
  destruct (ini_policy t (g_policy default_sets)) as [p|] eqn:P; [cbn [obind]|discriminate].
  destruct (ini_bool t [] (bs "directory") (g_directory default_sets)) as [d|]; [cbn [obind]|discriminate].
  destruct (ini_uint t (bs "maxattachmentsize") (g_attach default_sets)) as [a|] eqn:A; [cbn [obind]|discriminate].
  destruct (ini_uint t (bs "maxchunksize") (g_chunk default_sets)) as [c|] eqn:C; [cbn [obind]|discriminate].
  destruct (ini_bool t (bs "log") (bs "debug") (g_debug default_sets)) as [db|]; [cbn [obind]|discriminate].
  destruct (ini_bool t (bs "log") (bs "trace") (g_trace default_sets)) as [tr|]; [cbn [obind]|discriminate].
  intros [= <-]. cbn [g_msg g_chunk g_attach g_policy].
  unfold ini_uint in A, C. unfold ini_policy in P.
  change (conf_get t [] (bs "maxattachmentsize")) with (configured t (bs "maxattachmentsize")) in A.
  change (conf_get t [] (bs "maxchunksize")) with (configured t (bs "maxchunksize")) in C.
  change (conf_get t [] (bs "createpolicy")) with (configured t (bs "createpolicy")) in P.
  assert (A' : a < 2 ^ 64) by (destruct (configured t (bs "maxattachmentsize")); [now apply parse_uint_small in A|injection A as <-; vm_compute; reflexivity]).
  assert (C' : c < 2 ^ 64) by (destruct (configured t (bs "maxchunksize")); [now apply parse_uint_small in C|injection C as <-; vm_compute; reflexivity]).
  split; [reflexivity|]. split; [repeat split; auto; vm_compute; reflexivity|].
  exists t. split; [reflexivity|]. split; [intros x E; now rewrite E in C|].
  split; [intros E; rewrite E in C; now injection C as <-|]. split; [intros x E; now rewrite E in A|].
  split; [intros E; rewrite E in A; now injection A as <-|].
  split; [|split].
  - intros x E. rewrite E in P. destruct (mem x [bs "yes"; bs "no"; bs "token"]); [now injection P as <-|discriminate].
  - intros E. rewrite E in P. now injection P as <-.
  - destruct (configured t (bs "createpolicy")) as [x|].
    + destruct (mem x [bs "yes"; bs "no"; bs "token"]) eqn:Me; [|discriminate]. injection P as <-. now apply mem_In in Me.
    + injection P as <-. right. now left.
Qed.
Print Assumptions C44_settings.

(** The value of a switch, and the words for on and off: each letter small or
    large. *)
Definition configured_in (t : tables) (sec key : bytes) : option bytes :=
  match mget t sec with Some s => mget s key | None => None end.
Definition spells (w v : bytes) : Prop := Forall2 (fun a b => b = a \/ b = a - 32) w v.
Definition switch (t : tables) (sec key : bytes) (b : bool) : Prop :=
  match configured_in t sec key with
  | None => b = false
  | Some v => spells (if b then bs "yes" else bs "no") v
  end.

Lemma spells_lower w v : Forall (fun a => 97 <= a <= 122) w -> (map lower v = w <-> spells w v).
Proof.
  intros F. revert v. induction F as [|a w A F IH]; intros v.
  - split; [destruct v; [constructor|discriminate]|now inversion 1].
  - split.
    + destruct v as [|c v]; [discriminate|]. cbn. intros [= E1 E2]. constructor; [|now apply IH].
      unfold lower in E1. destruct (N.leb_spec 65 c), (N.leb_spec c 90); cbn in E1; lia.
    + inversion 1 as [|? c ? v' E G]; subst. cbn. f_equal; [|now apply IH].
      unfold lower. destruct (N.leb_spec 65 c), (N.leb_spec c 90); cbn; lia.
Qed.

Lemma yes_letters : Forall (fun a => 97 <= a <= 122) (bs "yes").
Proof. vm_compute. repeat constructor; discriminate. Qed.
Lemma no_letters : Forall (fun a => 97 <= a <= 122) (bs "no").
Proof. vm_compute. repeat constructor; discriminate. Qed.

Lemma ini_bool_switch t sec key b : ini_bool t sec key false = Some b <-> switch t sec key b.
Proof.
  unfold ini_bool, switch. change (conf_get t sec key) with (configured_in t sec key).
  destruct (configured_in t sec key) as [v|]; [|split; [now intros [= <-]|now intros ->]].
  destruct b; rewrite <- spells_lower by (apply yes_letters || apply no_letters).
  - destruct (eqb_spec (map lower v) (bs "yes")) as [E|E]; [split; auto|].
    destruct (eqb_spec (map lower v) (bs "no")); split; congruence || discriminate.
  - destruct (eqb_spec (map lower v) (bs "yes")) as [E|E].
    + rewrite E. split; discriminate.
    + destruct (eqb_spec (map lower v) (bs "no")); split; congruence || discriminate.
Qed.

(** The switches are as configured, off where they are not, and anything but yes
    or no refused. *)
Theorem C44_switches content s : load_sets content default_sets = Some s ->
  exists t, parse content = Some t /\
    switch t [] (bs "allowidentify") (g_identify s) /\
    switch t [] (bs "directory") (g_directory s) /\
    switch t (bs "log") (bs "debug") (g_debug s) /\
    switch t (bs "log") (bs "trace") (g_trace s).
Proof.
  unfold load_sets. destruct (parse content) as [t|]; [cbn [obind]|discriminate].
  destruct (ini_bool t [] (bs "allowidentify") (g_identify default_sets)) as [i|] eqn:I; [cbn [obind]|discriminate].
  destruct (ini_policy t (g_policy default_sets)) as [p|] eqn:P; [cbn [obind]|discriminate].
  destruct (ini_bool t [] (bs "directory") (g_directory default_sets)) as [d|] eqn:D; [cbn [obind]|discriminate].
  destruct (ini_uint t (bs "maxattachmentsize") (g_attach default_sets)) as [a|] eqn:A; [cbn [obind]|discriminate].
  destruct (ini_uint t (bs "maxchunksize") (g_chunk default_sets)) as [c|] eqn:C; [cbn [obind]|discriminate].
  destruct (ini_bool t (bs "log") (bs "debug") (g_debug default_sets)) as [db|] eqn:B; [cbn [obind]|discriminate].
  destruct (ini_bool t (bs "log") (bs "trace") (g_trace default_sets)) as [tr|] eqn:T; [cbn [obind]|discriminate].
  intros [= <-]. cbn [g_identify g_directory g_debug g_trace]. exists t.
  split; [reflexivity|]. rewrite <- !ini_bool_switch. repeat split; assumption.
Qed.
Print Assumptions C44_switches.

(** A file in which one of the switches is something else is refused. *)
Theorem C44_bad_switch content t key v : parse content = Some t ->
  In key [bs "allowidentify"; bs "directory"] -> configured_in t [] key = Some v ->
  ~ spells (bs "yes") v -> ~ spells (bs "no") v -> load_sets content default_sets = None.
Proof.
  intros P K V Y O. destruct (load_sets content default_sets) as [s|] eqn:L; [exfalso|reflexivity].
  destruct (C44_switches _ _ L) as (t' & P' & I & D & _).
  assert (t' = t) by congruence. subst t'.
  destruct K as [<-|[<-|[]]]; unfold switch in *; rewrite V in *.
  - destruct (g_identify s); tauto.
  - destruct (g_directory s); tauto.
Qed.
Print Assumptions C44_bad_switch.

(** So a server configured with a larger chunk size turns away every client. *)
Theorem C44_chunk_size_refuted content s now motd :
  load_sets content default_sets = Some s -> 263168 < g_chunk s ->
  (- 2 ^ 63 <= now < 2 ^ 63)%Z -> len motd <= 2 ^ 31 - 4 ->
  welcome_phase (server_welcome s now motd) = WRefused.
Proof.
  intros L C N M. destruct (C44_settings content s L) as (Em & So & _).
  apply (proj2 (C44_server s now motd So N M)). right. right. right. lia.
Qed.
Print Assumptions C44_chunk_size_refuted.

(** Example: one line of configuration. *)
Definition big_conf : bytes := bs "maxchunksize = 1048576" ++ [10].
Example big_conf_loads : exists s, load_sets big_conf default_sets = Some s /\ g_chunk s = 1048576 /\ 263168 < g_chunk s.
Proof. eexists. split; [vm_compute; reflexivity|]. split; [reflexivity|]. vm_compute. reflexivity. Qed.
Definition fine_conf : bytes := bs "maxattachmentsize = 5000" ++ [10] ++ bs "directory = YES" ++ [10] ++ bs "createpolicy=token" ++ [10].
Example switch_case : exists t, parse fine_conf = Some t /\
  configured_in t [] (bs "directory") = Some (bs "YES") /\ spells (bs "yes") (bs "YES").
Proof.
  eexists. split; [vm_compute; reflexivity|]. split; [vm_compute; reflexivity|].
  vm_compute. repeat (constructor; [right; reflexivity|]). constructor.
Qed.
Example bad_switch_case : load_sets (bs "directory = true" ++ [10]) default_sets = None.
Proof. vm_compute. reflexivity. Qed.
Example fine_conf_loads : load_sets fine_conf default_sets = Some (mkSets false (bs "token") true 5000 262144 263168 false false).
Proof. vm_compute. reflexivity. Qed.
Example fine_online : exists t, ts_new 32 = Ok t /\
  welcome_phase (server_welcome (mkSets false (bs "token") true 5000 262144 263168 false false) 1500000000 (bs "hello")) =
  WOnline (mkLimits t 32 262144 263168 5000 true) (mkWelcome 9 0 (server_properties (mkSets false (bs "token") true 5000 262144 263168 false false) 1500000000 (bs "hello"))).
Proof. apply C44_server; [vm_compute; auto|lia|vm_compute; congruence|]. vm_compute. intuition congruence. Qed.

(** A welcome whose depth is -2 crashes the client, and one with an unknown property
    that is not even required is refused; one with two depths counts the last. *)
Definition props1 (td : bytes) : list ServerProperty :=
  [ mkServerProperty (bs "servertime") (bs "-5") false; mkServerProperty (bs "maxchunksize") (bs "10") true;
    mkServerProperty (bs "maxmsgsize") (bs "10") true; mkServerProperty (bs "maxattachmentsize") (bs "1") true;
    mkServerProperty (bs "tagdepth") td true ].
Definition welcome1 (l : list ServerProperty) : bytes :=
  enc Message_codec (mkMessage (bs "welcome") 77 true 5) ++ enc Welcome_codec (mkWelcome 9 3 l) ++ [1; 2].
Example crash_case : welcome_phase (welcome1 (props1 (bs "-2"))) = WPanic.
Proof. vm_compute. reflexivity. Qed.
Example unknown_case : welcome_phase (welcome1 (props1 (bs "4") ++ [mkServerProperty (bs "colour") (bs "red") false])) = WRefused.
Proof. vm_compute. reflexivity. Qed.
Example last_case : exists l w, welcome_phase (welcome1 (props1 (bs "-7") ++ [mkServerProperty (bs "tagdepth") (bs "+4") false])) = WOnline l w /\ n_callbacks l = 4%nat /\ n_directory l = false.
Proof. eexists. eexists. split; [vm_compute; reflexivity|]. split; reflexivity. Qed.
Example offline_case : welcome_phase (server_unwelcome (bs "no")) = WOffline (bs "no").
Proof. vm_compute. reflexivity. Qed.

(** * The message of the day *)

Lemma len_ServerProperty k v r : len (enc ServerProperty_codec (mkServerProperty k v r)) = 12 + padded (len k) + padded (len v).
Proof.
  cbn [enc ServerProperty_codec xiso xpair fst snd ServerProperty_Key ServerProperty_Value ServerProperty_Required].
  rewrite !len_app, !len_opaque. cbn [enc xbool]. rewrite len_be. lia.
Qed.

Lemma len_welcome s now motd : len (server_welcome s now motd) =
  212 + padded (len (format_uint (g_attach s))) + padded (len (format_uint (g_chunk s))) + padded (len (format_uint (g_msg s))) +
  padded (len (format_int now)) + padded (len (format_bool (g_directory s))) + padded (len motd).
Proof.
  unfold server_welcome. rewrite len_app, len_Message.
  cbn [enc Welcome_codec xiso xpair xlist fst snd Welcome_Version Welcome_ServerTime Welcome_Properties].
  rewrite !len_app, len_be. unfold server_properties. cbn [map concat]. rewrite !len_app, !len_ServerProperty, len_nil.
  cbn [enc xint xint64]. rewrite !len_be.
  change (len k_tagdepth) with 8. change (len k_attach) with 17. change (len k_chunk) with 12. change (len k_msg) with 10.
  change (len k_time) with 10. change (len k_directory) with 9. change (len k_motd) with 4. change (len cmd_welcome) with 7.
  change (len (format_uint 32)) with 2.
  change (padded 8) with 8. change (padded 17) with 20. change (padded 12) with 12. change (padded 10) with 12.
  change (padded 9) with 12. change (padded 4) with 4. change (padded 7) with 8. change (padded 2) with 4. lia.
Qed.

Lemma dec_digits_nonempty f n : dec_digits (S f) n <> [].
Proof. cbn [dec_digits]. destruct (n <? 10); [discriminate|]. destruct (dec_digits f (n / 10)); discriminate. Qed.
Lemma padded_pos n : n <> 0 -> 4 <= padded n.
Proof. intros H. pose proof (padded_bounds n). pose proof (padded_mult n) as M. assert (padded n <> 1 /\ padded n <> 2 /\ padded n <> 3) by (repeat split; intros E; rewrite E in M; vm_compute in M; congruence). lia. Qed.
Lemma padded_20 n : n <= 20 -> padded n <= 20.
Proof.
  intros H. rewrite padded_spec. assert ((n + 3) / 4 <= 23 / 4) by (apply N.div_le_mono; lia). change (23 / 4) with 5 in *. lia.
Qed.
Lemma len_uint n : 4 <= padded (len (format_uint n)) <= 20.
Proof.
  split; [|apply padded_20, len_format]. apply padded_pos. unfold len. pose proof (dec_digits_nonempty 19 n) as H. unfold format_uint.
  destruct (dec_digits 20 n); [congruence|]. cbn [length]. lia.
Qed.
Lemma len_int z : (- 2 ^ 63 <= z < 2 ^ 63)%Z -> 4 <= padded (len (format_int z)) <= 20.
Proof.
  intros H. unfold format_int. destruct (Z.ltb_spec z 0); [|apply len_uint]. split.
  - apply padded_pos. rewrite len_cons. lia.
  - apply padded_20. rewrite len_cons. enough (len (format_uint (Z.to_N (- z))) <= 19) by lia.
    assert (B : Z.to_N (- z) < 10 ^ 19).
    { enough (Z.to_N (- z) <= 2 ^ 63) by (change (10 ^ 19) with 10000000000000000000; lia).
      change (2 ^ 63) with (Z.to_N (2 ^ 63)). apply Z2N.inj_le; lia. }
    apply short_format; auto.
Qed.

(** The welcome fits if the message of the day leaves 319 bytes, and not if it leaves
    fewer than 248. *)
Lemma welcome_room s now motd : (- 2 ^ 63 <= now < 2 ^ 63)%Z -> len motd + 248 <= len (server_welcome s now motd) + 16 <= len motd + 319.
Proof.
  intros H. rewrite len_welcome. pose proof (len_uint (g_attach s)). pose proof (len_uint (g_chunk s)). pose proof (len_uint (g_msg s)).
  pose proof (len_int now H). pose proof (padded_bounds (len motd)).
  assert (4 <= padded (len (format_bool (g_directory s))) <= 8) by (destruct (g_directory s); vm_compute; split; congruence). lia.
Qed.

(** With a message of the day that leaves room, what the server writes is read by the
    client, which is then online with the limits of the server. *)
Theorem C44_login seal unseal s now motd c d key rest i w r : box_law seal unseal -> sizes_ok s -> (- 2 ^ 63 <= now < 2 ^ 63)%Z ->
  now <> (-1)%Z -> g_attach s <> 0 -> g_chunk s <> 0 -> g_chunk s <= g_msg s ->
  maxsize c = g_msg s -> g_msg s <= maxsize d -> at_seq c i w -> at_seq d r i ->
  len motd + 319 <= g_msg s -> len motd <= 2 ^ 31 - 400 ->
  exists c' d' wire t,
    write_key seal c key (server_welcome s now motd) = (c', Ok wire) /\
    read_key unseal d key (wire ++ rest) = (d', Ok (server_welcome s now motd, rest)) /\
    ts_new 32 = Ok t /\
    welcome_phase (server_welcome s now motd) =
      WOnline (mkLimits t 32 (g_chunk s) (g_msg s) (g_attach s) (g_directory s)) (mkWelcome 9 0 (server_properties s now motd)).
Proof.
  intros [B1 B2] So Hn N1 N2 N3 N4 Mc Md Qc Qd Fm Lm. pose proof (welcome_room s now motd Hn) as [_ R]. unfold len in R at 1.
  assert (F : fits (maxsize c) (server_welcome s now motd)) by (unfold fits; lia).
  assert (F' : fits (maxsize d) (server_welcome s now motd)) by (unfold fits; lia).
  destruct (proj1 (C44_server s now motd So Hn ltac:(lia)) ltac:(auto)) as (t & T & W).
  eexists. eexists. eexists. exists t. split; [apply (write_fits seal unseal B1 B2); eauto|].
  split; [apply (read_frame seal unseal B1 B2); eauto; lia|]. auto.
Qed.
Print Assumptions C44_login.

(** One that does not leave room keeps everybody out: no welcome is ever written. *)
Theorem C44_motd_refuted seal unseal s now motd c key : box_law seal unseal -> (- 2 ^ 63 <= now < 2 ^ 63)%Z ->
  maxsize c < len motd + 248 ->
  snd (write_key seal c key (server_welcome s now motd)) = Err SessionModel.ErrOverflow.
Proof.
  intros [_ B2] Hn Hm. pose proof (welcome_room s now motd Hn) as [R _]. unfold len in R at 2.
  unfold write_key. cbv zeta. rewrite B2. destruct (N.ltb_spec (maxsize c) (N.of_nat (length (server_welcome s now motd) + 16))); [reflexivity|lia].
Qed.
Print Assumptions C44_motd_refuted.

Definition fine_sets : sets := mkSets false (bs "token") true 5000 262144 263168 false false.
Example login_case : exists c' d' wire t,
  write_key toy_seal (mkChan (nonce_at 7) (nonce_at 9) 263168) [1] (server_welcome fine_sets 1500000000 (bs "hello")) = (c', Ok wire) /\
  read_key toy_unseal (mkChan (nonce_at 9) (nonce_at 7) 263168) [1] (wire ++ [3]) = (d', Ok (server_welcome fine_sets 1500000000 (bs "hello"), [3])) /\
  ts_new 32 = Ok t /\
  welcome_phase (server_welcome fine_sets 1500000000 (bs "hello")) =
    WOnline (mkLimits t 32 262144 263168 5000 true) (mkWelcome 9 0 (server_properties fine_sets 1500000000 (bs "hello"))).
Proof.
  apply (C44_login toy_seal toy_unseal fine_sets 1500000000 (bs "hello") _ _ [1] [3] 7 9 9 toy_box_law);
    try (vm_compute; congruence); try apply at_seq_mk; try lia. vm_compute; auto.
Qed.
Example motd_case key : snd (write_key toy_seal (mkChan (nonce_at 7) (nonce_at 9) 263168) key (server_welcome default_sets 1500000000 (repeat 65 (N.to_nat 262921)))) = Err SessionModel.ErrOverflow.
Proof.
  apply (C44_motd_refuted toy_seal toy_unseal); [exact toy_box_law|lia|]. unfold len. rewrite repeat_length, N2Nat.id. cbn [maxsize]. lia.
Qed.
