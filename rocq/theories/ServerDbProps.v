(** Rendezvous PINs and account creation tokens. *)
From Verif Require Import Base IniModel IniMemProofs IniFileProofs XdrModel XdrProofs RpcModel RpcProofs StrconvModel ServerDbModel ServerDbProofs.
Local Open Scope N_scope.

Lemma run_app {Q A} (step : option bytes -> Q -> A -> option bytes -> Prop) q1 : forall a1 f q2 a2 f',
  run step f (q1 ++ q2) (a1 ++ a2) f' -> length a1 = length q1 ->
  exists f1, run step f q1 a1 f1 /\ run step f1 q2 a2 f'.
Proof.
  induction q1 as [|q q1 IH]; intros a1 f q2 a2 f' X L; destruct a1; try discriminate.
  - exists f. split; [constructor|exact X].
  - inversion X; subst. injection L as L. destruct (IH _ _ _ _ _ H6 L) as (f2 & Y & Z).
    exists f2. split; auto. econstructor; eauto.
Qed.

Lemma run_length {Q A} (step : option bytes -> Q -> A -> option bytes -> Prop) f qs aas f' :
  run step f qs aas f' -> length aas = length qs.
Proof. induction 1; cbn; auto. Qed.

Lemma app_split {A} (a : list A) : forall b c d, a ++ b = c ++ d -> length a = length c -> a = c /\ b = d.
Proof.
  induction a as [|x a IH]; intros b [|y c] d E L; try discriminate; auto.
  injection E as -> E. injection L as L. destruct (IH _ _ _ E L). subst. auto.
Qed.

Lemma spec_length {Q A M} (spec : M -> Q -> A * M) qs : forall m, length (fst (spec_run spec m qs)) = length qs.
Proof.
  induction qs as [|q qs IH]; intros m; auto. cbn [spec_run]. destruct (spec m q) as [a m1].
  specialize (IH m1). destruct (spec_run spec m1 qs). cbn [fst length] in *. now rewrite IH.
Qed.

(** * Rendezvous *)

(** Handled one after another, the requests are answered exactly as the
    specification says, whatever order Go writes its maps in, and every request
    is answered. *)
Theorem C27_refines : forall lim qs, Forall (rz_wire lim) qs ->
  (exists answers f, run (rz_step lim) None qs answers f) /\
  forall answers f, run (rz_step lim) None qs answers f -> answers = fst (spec_run rz_spec [] qs).
Proof.
  intros lim qs W. split; [now apply rz_runs|]. intros answers f X. now apply (rz_refines lim qs answers f).
Qed.
Print Assumptions C27_refines.

(** A confirmed blob is found under its PIN, whatever happens in between. *)
Theorem C27_fetch : forall lim before r draws between p a1 a2 b f,
  Forall (rz_wire lim) (before ++ Store r draws :: between) ->
  length a1 = length before -> length a2 = length between ->
  run (rz_step lim) None (before ++ Store r draws :: between ++ [Fetch p])
      (a1 ++ Stored (mkRendezvousReply p []) :: a2 ++ [b]) f ->
  b = Fetched (mkRendezvousPullReply [] p (Rendezvous_Blob r)).
Proof.
  intros lim before r draws between p a1 a2 b f W L1 L2 X.
  assert (W' : Forall (rz_wire lim) (before ++ Store r draws :: between ++ [Fetch p])).
  { apply Forall_app in W. destruct W as [Wa Wb]. apply Forall_app. split; auto. inversion Wb; subst.
    constructor; auto. apply Forall_app. split; auto. repeat constructor. }
  destruct (rz_refines _ _ _ _ X W') as [E _]. clear X W W'.
  rewrite spec_run_app in E. cbn [fst] in E. apply app_split in E; [|rewrite spec_length; auto].
  destruct E as [_ E]. set (M := snd (spec_run rz_spec [] before)) in *. cbn [spec_run] in E.
  destruct (rz_spec M (Store r draws)) as [a M1] eqn:S.
  destruct (spec_run rz_spec M1 (between ++ [Fetch p])) as [l M2] eqn:S2. cbn [fst] in E. injection E as E0 E1.
  assert (K : mget M1 p = Some r).
  { subst a. cbn [rz_spec] in S. destruct (4096 <? _); [discriminate|].
    destruct (match parse_uint _ with Some _ => _ | None => _ end); [|discriminate].
    destruct (free_pin 25 0 draws _); [|injection S; discriminate]. injection S as -> <-. cbn [mget]. now rewrite eqb_refl. }
  apply (rz_keeps_run between) in K. rewrite spec_run_app in S2. apply pair_equal_spec in S2; destruct S2 as [<- <-].
  apply app_split in E1; [|rewrite spec_length; auto]. destruct E1 as [_ E1]. cbn in E1. rewrite K in E1. now injection E1.
Qed.
Print Assumptions C27_fetch.

(** A blob that is too large, or an expiration that is not a number up to 168, is
    refused, and everything goes on as if the request had not been made. *)
Theorem C27_refused : forall lim before r draws after a1 a a2 f,
  Forall (rz_wire lim) (before ++ Store r draws :: after) ->
  length a1 = length before ->
  4096 < N.of_nat (length (Rendezvous_Blob r)) \/
    (forall e, parse_uint (Rendezvous_Expiration r) = Some e -> 168 < e) ->
  run (rz_step lim) None (before ++ Store r draws :: after) (a1 ++ a :: a2) f ->
  (exists e, e <> [] /\ a = Stored (mkRendezvousReply [] e)) /\
  exists f', run (rz_step lim) None (before ++ after) (a1 ++ a2) f'.
Proof.
  intros lim before r draws after a1 a a2 f W L1 B X.
  assert (W' : Forall (rz_wire lim) (before ++ after)).
  { apply Forall_app in W. destruct W as [Wa Wb]. apply Forall_app. split; auto. now inversion Wb. }
  destruct (rz_refines _ _ _ _ X W) as [E _]. destruct (rz_runs lim _ W') as (aas & f' & Y).
  destruct (rz_refines _ _ _ _ Y W') as [E' _]. rewrite spec_run_app in E, E'. cbn [fst] in E, E'.
  apply app_split in E; [|rewrite spec_length; auto]. destruct E as [E0 E].
  set (M := snd (spec_run rz_spec [] before)) in *. cbn [spec_run] in E.
  assert (S : exists e, e <> [] /\ rz_spec M (Store r draws) = (Stored (mkRendezvousReply [] e), M)).
  { cbn [rz_spec]. destruct (4096 <? N.of_nat (length (Rendezvous_Blob r))) eqn:E1.
    - eexists. split; [|reflexivity]. discriminate.
    - apply N.ltb_ge in E1. assert (Z : match parse_uint (Rendezvous_Expiration r) with Some e => e <=? 168 | None => false end = false).
      { destruct B as [B|B]; [lia|]. destruct (parse_uint (Rendezvous_Expiration r)) as [e|]; auto.
        apply N.leb_gt. now apply B. }
      rewrite Z. eexists. split; [|reflexivity]. discriminate. }
  destruct S as (e & Ne & S). rewrite S in E. destruct (spec_run rz_spec M after) as [l M2] eqn:S2.
  cbn [fst] in E. injection E as -> ->. split; [eauto|]. exists f'. cbn [fst] in E'. rewrite <- E0 in E'.
  now rewrite <- E'.
Qed.
Print Assumptions C27_refused.

(** A PIN is never given out twice. *)
Theorem C27_never_reassigned : forall lim before r draws between r' draws' p a1 a2 e f,
  Forall (rz_wire lim) (before ++ Store r draws :: between ++ [Store r' draws']) ->
  length a1 = length before -> length a2 = length between ->
  run (rz_step lim) None (before ++ Store r draws :: between ++ [Store r' draws'])
      (a1 ++ Stored (mkRendezvousReply p []) :: a2 ++ [Stored (mkRendezvousReply p e)]) f ->
  p <> [] -> False.
Proof.
  intros lim before r draws between r' draws' p a1 a2 e f W L1 L2 X NE.
  destruct (rz_refines _ _ _ _ X W) as [E _]. clear X W.
  rewrite spec_run_app in E. cbn [fst] in E. apply app_split in E; [|rewrite spec_length; auto].
  destruct E as [_ E]. set (M := snd (spec_run rz_spec [] before)) in *. cbn [spec_run] in E.
  destruct (rz_spec M (Store r draws)) as [a M1] eqn:S.
  destruct (spec_run rz_spec M1 (between ++ [Store r' draws'])) as [l M2] eqn:S2. cbn [fst] in E. injection E as E0 E1.
  assert (K : mget M1 p = Some r).
  { subst a. cbn [rz_spec] in S. destruct (4096 <? _); [discriminate|].
    destruct (match parse_uint _ with Some _ => _ | None => _ end); [|discriminate].
    destruct (free_pin 25 0 draws _); [|injection S; discriminate]. injection S as -> <-. cbn [mget]. now rewrite eqb_refl. }
  apply (rz_keeps_run between) in K. rewrite spec_run_app in S2. apply pair_equal_spec in S2; destruct S2 as [<- <-].
  apply app_split in E1; [|rewrite spec_length; auto]. destruct E1 as [_ E1].
  set (M3 := snd (spec_run rz_spec M1 between)) in *. cbn [spec_run] in E1.
  destruct (rz_spec M3 (Store r' draws')) as [a4 M4] eqn:S4. cbn [fst] in E1. injection E1 as <-.
  cbn [rz_spec] in S4. destruct (4096 <? _); [congruence|].
  destruct (match parse_uint _ with Some _ => _ | None => _ end); [|congruence].
  destruct (free_pin 25 0 draws' _) as [p'|] eqn:F; [|congruence]. injection S4 as -> _ _.
  apply free_pin_free in F. now rewrite K in F.
Qed.
Print Assumptions C27_never_reassigned.

Definition blob1 := mkRendezvous (bs "identity of alice") (bs "24").
Definition blob2 := mkRendezvous (bs "identity of carol") (bs "168").
Definition blob3 := mkRendezvous (bs "x") (bs "169").
Definition const_draw (x : N) : nat -> option N := fun _ => Some x.
Definition two_draws (x y : N) : nat -> option N := fun i => match i with O => Some x | 1%nat => None | _ => Some y end.

(** Three rendezvous, the second meeting a taken PIN and a lack of entropy, the
    third refused. *)
Example C27_case :
  Forall (rz_wire 1000) [Store blob1 (const_draw 7000123); Store blob2 (two_draws 123 456); Store blob3 (const_draw 5);
                         Fetch (bs "456"); Fetch (bs "123"); Fetch (bs "5")] /\
  fst (spec_run rz_spec [] [Store blob1 (const_draw 7000123); Store blob2 (two_draws 123 456); Store blob3 (const_draw 5);
                         Fetch (bs "456"); Fetch (bs "123"); Fetch (bs "5")])
  = [Stored (mkRendezvousReply (bs "123") []); Stored (mkRendezvousReply (bs "456") []);
     Stored (mkRendezvousReply [] (bs "invalid expiration"));
     Fetched (mkRendezvousPullReply [] (bs "456") (bs "identity of carol"));
     Fetched (mkRendezvousPullReply [] (bs "123") (bs "identity of alice"));
     Fetched (mkRendezvousPullReply (bs "invalid PIN") [] [])].
Proof.
  split; [|vm_compute; reflexivity].
  assert (B : forall l, forallb (fun x => x <? 256) l = true -> Forall is_byte l).
  { intros l H. rewrite forallb_forall in H. apply Forall_forall. intros x Hx. now apply N.ltb_lt, H. }
  assert (S : forall s, (N.of_nat (length s) + pad_len (N.of_nat (length s)) <=? max_int32) && (N.of_nat (length s) <=? 1000) = true ->
    str_ok 1000 s).
  { intros s H. apply andb_prop in H as [H1 H2]. apply N.leb_le in H1, H2. split; auto. }
  do 3 (apply Forall_cons; [split; [split; apply S; reflexivity|split; apply B; reflexivity]|]). repeat (apply Forall_cons; [exact I|]). constructor.
Qed.

(** Two overlapping rendezvous: both are confirmed, under different PINs, but the
    first blob is gone. *)
Theorem C27_overlap_refuted :
  exists f p, races (fun i d => match i with O => rz_store (const_draw 1) d blob1 | _ => rz_store (const_draw 2) d blob2 end)
      (render [([], [])], fun _ => Idle) (f, p) /\
    p 0%nat = Done (mkRendezvousReply (bs "1") []) /\ p 1%nat = Done (mkRendezvousReply (bs "2") []) /\
    forall lim, rz_step lim (Some f) (Fetch (bs "1")) (Fetched (mkRendezvousPullReply (bs "invalid PIN") [] [])) (Some f).
Proof.
  eexists. eexists. split; [|].
  - eapply Races_step; [eapply (Race_open _ _ _ 0); [reflexivity|vm_compute; reflexivity]|].
    eapply Races_step; [eapply (Race_open _ _ _ 1); [reflexivity|vm_compute; reflexivity]|].
    eapply Races_step; [eapply (Race_body _ _ _ 0); [reflexivity|vm_compute; reflexivity]|].
    eapply Races_step; [eapply (Race_body _ _ _ 1); [reflexivity|vm_compute; reflexivity]|].
    eapply Races_step; [eapply (Race_save _ _ _ 0); [reflexivity|eexists; split; [apply iterates_refl|reflexivity]]|].
    eapply Races_step; [eapply (Race_save _ _ _ 1); [reflexivity|eexists; split; [apply iterates_refl|reflexivity]]|].
    apply Races_refl.
  - split; [reflexivity|]. split; [reflexivity|]. intros lim. unfold rz_step.
    match goal with |- context [db_open ?x] => let y := eval vm_compute in (db_open x) in
      assert (E : db_open x = y) by (vm_compute; reflexivity); rewrite E end.
    split; [|reflexivity]. vm_compute. reflexivity.
Qed.
Print Assumptions C27_overlap_refuted.

(** * Tokens *)

Theorem C26_refines : forall qs, Forall tok_wire qs ->
  (exists answers f, run tok_step None qs answers f) /\
  forall answers f, run tok_step None qs answers f -> answers = fst (spec_run tok_spec [] qs).
Proof.
  intros qs W. split; [now apply tok_runs|]. intros answers f X. now apply (tok_refines qs answers f).
Qed.
Print Assumptions C26_refines.

Lemma mget_alive clock M k : NoDup (mkeys M) ->
  mget (alive clock M) k = match mget M k with Some e => if (clock k <=? e * 1000000000)%Z then Some e else None | None => None end.
Proof. intros ND. unfold alive. now rewrite mget_filter. Qed.

Definition spec_ok (M : tokens) := NoDup (mkeys M).
Lemma free_token_free draws : forall taken p, free_token draws taken = Some (Some p) -> taken p = false.
Proof.
  induction draws as [|[x|] draws IH]; intros taken p; cbn [free_token]; try discriminate.
  cbv zeta. destruct (taken (format_uint (x mod 10 ^ 16))) eqn:E.
  - cbn [negb]. rewrite andb_false_r. apply IH.
  - destruct ((10 ^ 16 <=? x) && (10 ^ 15 <=? x mod 10 ^ 16)); cbn [negb andb]; [now injection 1 as <-|apply IH].
Qed.

Lemma tok_spec_ok M q : spec_ok M -> spec_ok (snd (tok_spec M q)).
Proof.
  unfold spec_ok. intros H. destruct q as [draws now hours|tok now clock]; cbn [tok_spec].
  - destruct (free_token draws _) as [[p|]|] eqn:E; auto. cbn [snd mkeys map fst]. constructor; auto.
    apply free_token_free in E. apply mget_None. now destruct (mget M p).
  - destruct (mget M tok); cbn [snd]; apply NoDup_filter_keys; auto. now apply NoDup_mdel.
Qed.

Lemma tok_run_ok qs : forall M, spec_ok M -> spec_ok (snd (spec_run tok_spec M qs)).
Proof.
  induction qs as [|q qs IH]; intros M H; auto. cbn [spec_run]. pose proof (tok_spec_ok M q H) as K.
  destruct (tok_spec M q) as [a M1]. specialize (IH M1 K). destruct (spec_run tok_spec M1 qs). exact IH.
Qed.

(** A token that is absent stays absent until the tool prints it. *)
Lemma tok_absent tok qs : forall M, spec_ok M -> mget M tok = None ->
  (forall p, ~ In (Tool (Printed tok p)) (fst (spec_run tok_spec M qs))) ->
  mget (snd (spec_run tok_spec M qs)) tok = None.
Proof.
  induction qs as [|q qs IH]; intros M O N A; auto. cbn [spec_run] in *. pose proof (tok_spec_ok M q O) as O1.
  destruct (tok_spec M q) as [a M1] eqn:S. cbn [snd] in O1.
  assert (N1 : mget M1 tok = None).
  { destruct q as [draws now hours|t now clock]; cbn [tok_spec] in S.
    - destruct (free_token draws _) as [[p|]|] eqn:F; injection S as <- <-; auto. cbn [mget].
      destruct (eqb_spec tok p) as [->|ne]; auto. exfalso. apply (A (spaced p)).
      destruct (spec_run tok_spec _ qs). now left.
    - destruct (mget M t) eqn:Et; injection S as <- <-; rewrite mget_alive by (try apply NoDup_mdel; auto).
      + rewrite mget_mdel. destruct (eqb tok t); auto. now rewrite N.
      + now rewrite N. }
  specialize (IH M1 O1 N1). destruct (spec_run tok_spec M1 qs) as [l M2]. cbn [fst snd] in *. apply IH.
  intros p H. apply (A p). now right.
Qed.

(** Presented once, a token is not accepted again, unless the tool prints it again. *)
Theorem C26_once : forall before tok now clock between now' clock' a1 a a2 b f,
  Forall tok_wire (before ++ Use tok now clock :: between ++ [Use tok now' clock']) ->
  length a1 = length before -> length a2 = length between ->
  (forall p, ~ In (Tool (Printed tok p)) a2) ->
  run tok_step None (before ++ Use tok now clock :: between ++ [Use tok now' clock'])
      (a1 ++ a :: a2 ++ [b]) f ->
  b = Valid false.
Proof.
  intros before tok now clock between now' clock' a1 a a2 b f W L1 L2 A X.
  destruct (tok_refines _ _ _ X W) as [E _]. clear X W.
  rewrite spec_run_app in E. cbn [fst] in E. apply app_split in E; [|rewrite spec_length; auto].
  destruct E as [_ E]. pose proof (tok_run_ok before [] (NoDup_nil _)) as O.
  set (M := snd (spec_run tok_spec [] before)) in *. cbn [spec_run] in E.
  pose proof (tok_spec_ok M (Use tok now clock) O) as O1.
  destruct (tok_spec M (Use tok now clock)) as [a0 M1] eqn:S.
  destruct (spec_run tok_spec M1 (between ++ [Use tok now' clock'])) as [l M2] eqn:S2. cbn [fst snd] in *. injection E as E0 E1.
  assert (N1 : mget M1 tok = None).
  { cbn [tok_spec] in S. destruct (mget M tok) eqn:Et; injection S as <- <-; rewrite mget_alive by (try apply NoDup_mdel; auto).
    - rewrite mget_mdel, eqb_refl. reflexivity.
    - now rewrite Et. }
  rewrite spec_run_app in S2. apply pair_equal_spec in S2; destruct S2 as [<- <-]. apply app_split in E1; [|rewrite spec_length; auto].
  destruct E1 as [E1 E2]. subst a2. pose proof (tok_absent tok between M1 O1 N1 A) as K. cbn in E2. rewrite K in E2. now injection E2.
Qed.
Print Assumptions C26_once.

(** A token the tool did not print is not accepted. *)
Theorem C26_unknown : forall before tok now clock a1 b f,
  Forall tok_wire (before ++ [Use tok now clock]) ->
  length a1 = length before -> (forall p, ~ In (Tool (Printed tok p)) a1) ->
  run tok_step None (before ++ [Use tok now clock]) (a1 ++ [b]) f -> b = Valid false.
Proof.
  intros before tok now clock a1 b f W L A X. destruct (tok_refines _ _ _ X W) as [E _].
  rewrite spec_run_app in E. cbn [fst] in E. apply app_split in E; [|rewrite spec_length; auto].
  destruct E as [-> E]. pose proof (tok_absent tok before [] (NoDup_nil _) eq_refl A) as K. cbn in E. rewrite K in E. now injection E.
Qed.
Print Assumptions C26_unknown.

(** A printed token is accepted up to its expiry and not afterwards, provided it
    was not presented and no clock was past the expiry in between. *)
Theorem C26_printed : forall before draws now hours between tok p now' clock' a1 a2 b f,
  Forall tok_wire (before ++ Issue draws now hours :: between ++ [Use tok now' clock']) ->
  length a1 = length before -> length a2 = length between ->
  (forall t n c, In (Use t n c) between -> t <> tok /\
     (c tok <= (now / 1000000000 + 3600 * Z.of_N hours) * 1000000000)%Z) ->
  run tok_step None (before ++ Issue draws now hours :: between ++ [Use tok now' clock'])
      (a1 ++ Tool (Printed tok p) :: a2 ++ [b]) f ->
  b = Valid (now' <=? (now / 1000000000 + 3600 * Z.of_N hours) * 1000000000)%Z.
Proof.
  intros before draws now hours between tok p now' clock' a1 a2 b f W L1 L2 A X.
  destruct (tok_refines _ _ _ X W) as [E _]. clear X W. set (e := (now / 1000000000 + 3600 * Z.of_N hours)%Z) in *.
  rewrite spec_run_app in E. cbn [fst] in E. apply app_split in E; [|rewrite spec_length; auto].
  destruct E as [_ E]. pose proof (tok_run_ok before [] (NoDup_nil _)) as O.
  set (M := snd (spec_run tok_spec [] before)) in *. cbn [spec_run] in E.
  pose proof (tok_spec_ok M (Issue draws now hours) O) as O1.
  destruct (tok_spec M (Issue draws now hours)) as [a0 M1] eqn:S.
  destruct (spec_run tok_spec M1 (between ++ [Use tok now' clock'])) as [l M2] eqn:S2. cbn [fst snd] in *. injection E as E0 E1.
  assert (N1 : mget M1 tok = Some e).
  { cbn [tok_spec] in S. destruct (free_token draws _) as [[p'|]|]; injection S as <- <-; try discriminate.
    injection E0 as <- _. cbn [mget]. now rewrite eqb_refl. }
  rewrite spec_run_app in S2. apply pair_equal_spec in S2; destruct S2 as [<- <-]. apply app_split in E1; [|rewrite spec_length; auto].
  destruct E1 as [_ E2]. clear -A N1 O1 E2.
  assert (K : mget (snd (spec_run tok_spec M1 between)) tok = Some e).
  { clear E2. revert M1 O1 N1. induction between as [|q qs IH]; intros M O N; auto. cbn [spec_run].
    pose proof (tok_spec_ok M q O) as O1.
    assert (N1 : mget (snd (tok_spec M q)) tok = Some e).
    { destruct q as [dr nw hr|t n c]; cbn [tok_spec].
      - destruct (free_token dr _) as [[p'|]|] eqn:F; auto. cbn [snd mget]. apply free_token_free in F.
        destruct (eqb_spec tok p') as [->|ne]; auto. now rewrite N in F.
      - destruct (A t n c (or_introl eq_refl)) as [A1 A2].
        destruct (mget M t) eqn:Et; cbn [snd]; rewrite mget_alive by (try apply NoDup_mdel; auto).
        + rewrite mget_mdel. destruct (eqb_spec tok t); [congruence|]. rewrite N. apply Z.leb_le in A2. now rewrite A2.
        + rewrite N. apply Z.leb_le in A2. now rewrite A2. }
    destruct (tok_spec M q) as [a M1]. cbn [snd] in *. specialize (IH (fun t n c H => A t n c (or_intror H)) M1 O1 N1).
    destruct (spec_run tok_spec M1 qs). exact IH. }
  cbn in E2. rewrite K in E2. now injection E2.
Qed.
Print Assumptions C26_printed.

Definition hour_ns (h : Z) : Z := (h * 3600000000000)%Z.
Definition run_of_tokens : list tok_request :=
  [ Use (bs "1") 0%Z (fun _ => 0%Z);
    Issue [Some 5; Some (10 ^ 16 + 77); Some (3 * 10 ^ 16 + 1234567890123456)] (hour_ns 100) 24;
    Issue [Some (10 ^ 16 + 1234567890123456); Some (10 ^ 16 + 2222333344445555)] (hour_ns 100) 1;
    Use (bs "1234567890123456") (hour_ns 124) (fun _ => hour_ns 124);
    Use (bs "1234567890123456") (hour_ns 100) (fun _ => hour_ns 100);
    Use (bs "2222333344445555") (hour_ns 100) (fun _ => hour_ns 100) ].
Example C26_case : Forall tok_wire run_of_tokens /\
  fst (spec_run tok_spec [] run_of_tokens) =
  [ Valid false;
    Tool (Printed (bs "1234567890123456") (bs "1234 5678 9012 3456"));
    Tool (Printed (bs "2222333344445555") (bs "2222 3333 4444 5555"));
    Valid true; Valid false; Valid false ].
Proof.
  split; [|vm_compute; reflexivity]. unfold run_of_tokens.
  assert (T : forall draws now hours, ((0 <=? now) && (now <? 10 ^ 12 * 1000000000))%Z && (hours <=? 2562047) &&
    forallb (fun x => match x with Some v => v <? 2 ^ 64 | None => true end) draws = true -> tok_wire (Issue draws now hours)).
  { intros draws now hours H. rewrite !andb_true_iff in H. destruct H as (((H1 & H2) & H3) & H4).
    split; [lia|]. split; [lia|]. rewrite forallb_forall in H4. apply Forall_forall. intros [x|] Hx; auto.
    apply N.ltb_lt. exact (H4 _ Hx). }
  repeat (apply Forall_cons; [first [exact I | apply T; vm_compute; reflexivity]|]).
  constructor.
Qed.

(** Two overlapping requests presenting the same token are both accepted. *)
Theorem C26_overlap_refuted :
  exists f0 f p, flat f0 [(bs "1234567890123456", bs "500")] /\
    races (fun i d => valid_token (bs "1234567890123456") 0%Z (fun _ => 0%Z) d) (f0, fun _ => Idle) (f, p) /\
    p 0%nat = Done true /\ p 1%nat = Done true.
Proof.
  exists (render [([], [(bs "1234567890123456", bs "500")])]). eexists. eexists. split; [|split].
  - split; [vm_compute; reflexivity|]. split; [repeat constructor; intros []|].
    assert (D : forall n, n < 2 ^ 64 -> clean_key (format_uint n) /\ clean (format_uint n)) by apply clean_digits.
    constructor; [|constructor]. change (bs "1234567890123456") with (format_uint 1234567890123456).
    change (bs "500") with (format_uint 500). split; apply D; reflexivity.
  - eapply Races_step; [eapply (Race_open _ _ _ 0); [reflexivity|vm_compute; reflexivity]|].
    eapply Races_step; [eapply (Race_open _ _ _ 1); [reflexivity|vm_compute; reflexivity]|].
    eapply Races_step; [eapply (Race_body _ _ _ 0); [reflexivity|vm_compute; reflexivity]|].
    eapply Races_step; [eapply (Race_body _ _ _ 1); [reflexivity|vm_compute; reflexivity]|].
    eapply Races_step; [eapply (Race_save _ _ _ 0); [reflexivity|eexists; split; [apply iterates_refl|reflexivity]]|].
    eapply Races_step; [eapply (Race_save _ _ _ 1); [reflexivity|eexists; split; [apply iterates_refl|reflexivity]]|].
    apply Races_refl.
  - split; reflexivity.
Qed.
Print Assumptions C26_overlap_refuted.

Lemma free_token_form draws : forall taken p, free_token draws taken = Some (Some p) ->
  exists n, 10 ^ 15 <= n < 10 ^ 16 /\ p = format_uint n.
Proof.
  induction draws as [|[x|] draws IH]; intros taken p; cbn [free_token]; try discriminate.
  cbv zeta. set (n := x mod 10 ^ 16). assert (B : n < 10 ^ 16) by (apply N.mod_lt; discriminate).
  destruct (taken (format_uint n)); [rewrite andb_false_r; apply IH|].
  destruct (10 ^ 16 <=? x); cbn [andb negb]; [|apply IH].
  destruct (N.leb_spec (10 ^ 15) n); cbn [andb]; [|apply IH]. injection 1 as <-. eauto.
Qed.

Lemma spaced_spec x : (length x = 16)%nat -> Forall (fun c => 48 <= c <= 57) x ->
  filter (fun c => negb (eqb c SP)) (spaced x) = x.
Proof.
  intros L D.
  assert (F : forall l, Forall (fun c => 48 <= c <= 57) l -> filter (fun c => negb (eqb c SP)) l = l).
  { induction 1 as [|c l H _ IH]; auto. cbn [filter]. destruct (eqb_spec c SP) as [->|ne]; [unfold SP in H; lia|]. cbn [negb]. now rewrite IH. }
  unfold spaced. rewrite !filter_app. change (filter (fun c => negb (eqb c SP)) [SP]) with (@nil N). cbn [app].
  do 16 (destruct x as [|? x]; [discriminate|]). destruct x; [|discriminate]. cbn [firstn skipn].
  rewrite <- !filter_app. cbn [app]. now apply F.
Qed.

(** What the tool prints: sixteen digits in groups of four; without the spaces it
    is the token; the token was not accepted right before. *)
Theorem C47_printed : forall before draws now hours tok p a1 f,
  Forall tok_wire (before ++ [Issue draws now hours]) -> length a1 = length before ->
  run tok_step None (before ++ [Issue draws now hours]) (a1 ++ [Tool (Printed tok p)]) f ->
  length tok = 16%nat /\ Forall (fun c => 48 <= c <= 57) tok /\
  length p = 19%nat /\ filter (fun c => negb (eqb c SP)) p = tok /\
  forall now' clock' b f', run tok_step None (before ++ [Use tok now' clock']) (a1 ++ [b]) f' -> b = Valid false.
Proof.
  intros before draws now hours tok p a1 f W L X. destruct (tok_refines _ _ _ X W) as [E _].
  rewrite spec_run_app in E. cbn [fst] in E. apply app_split in E; [|rewrite spec_length; auto].
  destruct E as [E0 E]. set (M := snd (spec_run tok_spec [] before)) in *. cbn [spec_run tok_spec] in E.
  destruct (free_token draws _) as [[q|]|] eqn:F; cbn [fst] in E; try discriminate. injection E as -> ->.
  destruct (free_token_form _ _ _ F) as (n & [B1 B2] & ->).
  assert (Ln : length (format_uint n) = 16%nat) by (now apply format_length).
  assert (B3 : n < 2 ^ 64) by (eapply N.lt_trans; [exact B2|reflexivity]).
  destruct (format_digits n B3) as [_ D]. apply digit_range in D.
  split; auto. split; auto. split.
  { unfold spaced. rewrite !app_length, !firstn_length, !skipn_length, Ln. reflexivity. }
  split; [now apply spaced_spec|]. intros now' clock' b f' Y.
  assert (W' : Forall tok_wire (before ++ [Use (format_uint n) now' clock'])).
  { apply Forall_app in W. destruct W. apply Forall_app. split; auto. repeat constructor. }
  destruct (tok_refines _ _ _ Y W') as [E' _]. rewrite spec_run_app in E'. cbn [fst] in E'.
  apply app_split in E'; [|rewrite spec_length; auto]. destruct E' as [_ E']. fold M in E'.
  apply free_token_free in F. cbn [spec_run tok_spec] in E'. destruct (mget M (format_uint n)); [discriminate|].
  cbn [fst] in E'. now injection E'.
Qed.
Print Assumptions C47_printed.

(** And the server accepts it until the requested time has passed. *)
Theorem C47_accepted : forall before draws now hours tok p now' clock' a1 b f,
  Forall tok_wire (before ++ [Issue draws now hours; Use tok now' clock']) -> length a1 = length before ->
  run tok_step None (before ++ [Issue draws now hours; Use tok now' clock']) (a1 ++ [Tool (Printed tok p); b]) f ->
  b = Valid (now' <=? (now / 1000000000 + 3600 * Z.of_N hours) * 1000000000)%Z.
Proof.
  intros before draws now hours tok p now' clock' a1 b f W L X.
  apply (C26_printed before draws now hours [] tok p now' clock' a1 [] b f); auto. intros t n c [].
Qed.
Print Assumptions C47_accepted.

(** The first run of tokens above shows the tool at work; here is the tool with a
    life time of zero hours: the token is accepted in the same second only. *)
Example C47_case :
  fst (spec_run tok_spec [] [Issue [Some (10 ^ 16 + 9000000000000001)] 1700000000500000000%Z 0;
                             Use (bs "9000000000000001") 1700000000000000000%Z (fun _ => 0%Z)])
  = [Tool (Printed (bs "9000000000000001") (bs "9000 0000 0000 0001")); Valid true] /\
  fst (spec_run tok_spec [] [Issue [Some (10 ^ 16 + 9000000000000001)] 1700000000500000000%Z 0;
                             Use (bs "9000000000000001") 1700000000500000001%Z (fun _ => 0%Z)])
  = [Tool (Printed (bs "9000000000000001") (bs "9000 0000 0000 0001")); Valid false].
Proof. vm_compute. auto. Qed.
