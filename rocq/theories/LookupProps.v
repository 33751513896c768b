(** C75: looking up nicks in the directory of the server. *)
From Coq Require Import Permutation.
From Verif Require Import Base LookupModel LookupProofs.

(** ** Specification *)

(** The user asked for nick [n] in the execution [l]; somebody's invitation named it. *)
Definition typed (l : list event) (n : bytes) : Prop := In (Find n true) l \/ In (Talk n true) l.
Definition named (l : list event) (n f : bytes) : Prop := exists ms, In (Invited f true ms) l /\ In (n, true) ms.
(** The directory [d], at some time of the execution [l], had identity [id] under [n]. *)
Definition listed (d : list (bytes * bytes)) (l : list event) (n id : bytes) : Prop :=
  In (n, id) d \/ In (Enlist n id) l.
(** A lookup of [n] has been accepted and not been answered. *)
Definition underway (s : st) (n : bytes) : Prop := In n (queue s) \/ In n (open s) \/ In n (lost s).

(** ** Every lookup has a cause and at most one outcome, and the outcome is the directory's *)

(** With a server that answers what it is asked from its directory, in every execution
    since the client was started, with lookups, invitations, replies in any order,
    connections lost and made, contacts and the directory changing: the lookups that were
    accepted are, one for one, those that have an outcome, that wait in the queue, that the
    server has, and that were lost with a connection; no nick is looked up twice at the
    same time; every lookup was asked for by the user or named by an invitation, and is
    neither of the empty nick nor of the client's own; and every key exchange that a lookup
    began is with an identity that was in the directory under the nick looked up. *)
Theorem C75_once m b d l s : run true (start m b d) l = Some s ->
  Permutation (map fst (asked s)) (map fst (outs s) ++ queue s ++ open s ++ lost s) /\
  NoDup (queue s ++ open s ++ lost s) /\
  (forall n w, In (n, w) (asked s) ->
     match w with User => typed l n | Invite f => named l n f end /\ n <> [] /\ n <> m) /\
  (forall n id, In (n, Begun id) (outs s) -> listed d l n id).
Proof.
  intros R.
  assert (I : inv m (fun n id => listed d l n id)
                (fun n w => match w with User => typed l n | Invite f => named l n f end) s).
  { eapply run_inv; [apply start_inv|intros e IE; destruct e as [n [|]|n [|]|f [|] ms| | | | | | | | |n id|]; cbn; auto|exact R].
    - intros n id H. left. now apply mget_In.
    - left; auto.
    - right; auto.
    - intros n N. exists ms; auto.
    - now right. }
  destruct I as [ND PE AL DR OU AS ME OF]. repeat split; auto; apply (AS _ _ H).
Qed.
Print Assumptions C75_once.

(** ** Which lookups are accepted *)

Theorem C75_accepted m b d l s n w tag : run true (start m b d) l = Some s ->
  ((exists s', find s n w tag = Some s') <->
   online s = true /\ directory s = true /\ n <> [] /\ n <> m /\ mget (book s) n = None /\ ~ underway s n /\ tag = true).
Proof.
  intros R. assert (I : inv0 m s) by (eapply run_inv; [apply start_inv; auto|intros; apply allowed0|exact R]).
  pose proof (i_me _ _ _ _ I) as ME. pose proof (i_pend _ _ _ _ I n) as PE. unfold und in PE. rewrite !in_app_iff in PE.
  fold (underway s n) in PE. split.
  - intros [s' F]. apply find_spec in F. rewrite ME in F. rewrite <- PE. tauto.
  - intros (ON & DI & NE & NM & NB & NU & ->). unfold find, known, mhas. rewrite ON, DI, NB, ME. cbn.
    destruct (eqb_spec n []); [tauto|]. destruct (eqb_spec n m); [tauto|].
    destruct (mem n (pend s)) eqn:M; [apply mem_In, PE in M; tauto|]. eauto.
Qed.
Print Assumptions C75_accepted.

(** ** A lookup whose reply is lost is never repeated *)

(** A lookup that was with the server when the connection broke has no outcome, and the
    nick can not be looked up again until the client is started anew. *)
Theorem C75_lost_refuted m b d l1 s1 l2 s2 n :
  run true (start m b d) l1 = Some s1 -> In n (open s1) ->
  run true s1 (Break :: l2) = Some s2 -> ~ In Restart l2 ->
  (forall w tag, find s2 n w tag = None) /\ (forall o, In (n, o) (outs s2) -> In (n, o) (outs s1)).
Proof.
  intros R1 O R2 NR. assert (I : inv0 m s1) by (eapply run_inv; [apply start_inv; auto|intros; apply allowed0|exact R1]).
  assert (I2 : inv0 m s2) by (eapply run_inv; [exact I|intros; apply allowed0|exact R2]).
  cbn [run step] in R2. destruct (online s1) eqn:ON; [|discriminate].
  destruct (run_lost m l2 (break s1) s2 n) as [L OU]; auto.
  - now apply break_inv.
  - cbn. rewrite in_app_iff; auto.
  - split; [|exact OU]. intros w tag. destruct (find s2 n w tag) eqn:F; auto. apply find_spec in F.
    exfalso. apply F. apply (i_pend _ _ _ _ I2). unfold und. rewrite !in_app_iff; auto.
Qed.
Print Assumptions C75_lost_refuted.

(** ** Key exchanges nobody asked for *)

(** A server that is not honest makes the client begin a key exchange with any identity,
    although nobody looked up anything. *)
Theorem C75_forged_refuted m b d n id : exists s,
  run false (start m b d) [Connect true; Forged n (Some id) false] = Some s /\
  asked s = [] /\ outs s = [(n, Begun id)].
Proof. cbn. unfold handle. destruct (eqb n []); eexists; repeat split. Qed.
Print Assumptions C75_forged_refuted.

(** Any contact makes the client begin a key exchange with anybody in the directory, by
    an invitation to a group; the user need not even look at it. *)
Theorem C75_invited_refuted m b d f from n id :
  In (f, from) b -> mget b n = None -> n <> [] -> n <> m -> mget d n = Some id -> exists s,
  run true (start m b d) [Connect true; Invited from true [(n, true)]; Written 0; Reply 0 false] = Some s /\
  outs s = [(n, Begun id)].
Proof.
  intros B NB NE NM D. cbn.
  assert (X : existsb (fun p : bytes * bytes => eqb (snd p) from) b = true).
  { apply existsb_exists. exists (f, from). split; auto. apply eqb_refl. }
  rewrite X. cbn. unfold known, mhas, find, known, mhas; cbn. rewrite NB. cbn.
  destruct (eqb_spec n []); [tauto|]. destruct (eqb_spec n m); [tauto|]. cbn.
  unfold handle, answer. cbn. rewrite D. destruct (eqb_spec n []); [tauto|]. eexists; split; reflexivity.
Qed.
Print Assumptions C75_invited_refuted.

(** ** A lookup that has not reached the server survives the connection *)

(** A lookup in the queue, whether or not the client is online: once the client is
    connected, the request is written and the server answers, it has the outcome that the
    directory gives, and the nick is no longer underway. *)
Theorem C75_answered m b d l s n : run true (start m b d) l = Some s -> In n (queue s) ->
  exists i s', run true s ((if online s then [] else [Connect true]) ++ [Written i; Reply (length (open s)) false]) = Some s' /\
    outs s' = outs s ++ [(n, match mget (dir s) n with Some id => Begun id | None => Unknown end)] /\ ~ underway s' n.
Proof.
  intros R Q. assert (I : inv0 m s) by (eapply run_inv; [apply start_inv; auto|intros; apply allowed0|exact R]).
  assert (NE : n <> []) by (eapply und_nonempty; [exact I|unfold und; rewrite in_app_iff; auto]).
  apply In_nth_error in Q as [i N]. exists i.
  assert (X : exists s', run true s ((if online s then [] else [Connect true]) ++ [Written i; Reply (length (open s)) false]) = Some s' /\
    outs s' = outs s ++ [(n, answer s n)] /\ queue s' = remove_at i (queue s) /\ open s' = open s /\ lost s' = lost s).
  { assert (RA : forall (l0 : list bytes) x, remove_at (length l0) (l0 ++ [x]) = l0).
    { intros l0 x. unfold remove_at. rewrite firstn_app, firstn_all, Nat.sub_diag. cbn [firstn].
      rewrite skipn_all2; [now rewrite !app_nil_r|rewrite app_length; cbn; lia]. }
    assert (NL : forall (l0 : list bytes) x, nth_error (l0 ++ [x]) (length l0) = Some x).
    { intros l0 x. rewrite nth_error_app2, Nat.sub_diag; auto. }
    destruct (online s) eqn:ON; cbn [app run step].
    - rewrite N, ON. cbn [open set_open]. rewrite NL. unfold handle. destruct (eqb_spec n []); [tauto|].
      eexists; split; [reflexivity|]. cbn. now rewrite RA.
    - rewrite ON. cbn [open set_open queue online]. rewrite N. cbn [open set_open queue online].
      rewrite (i_off _ _ _ _ I ON). cbn [length app nth_error]. unfold handle. destruct (eqb_spec n []); [tauto|].
      eexists; split; [reflexivity|]. cbn. auto. }
  destruct X as (s' & RR & O & Q' & P' & L'). exists s'. split; [exact RR|]. split; [exact O|].
  unfold underway. rewrite Q', P', L'. pose proof (i_nodup _ _ _ _ I) as ND. unfold und in ND.
  assert (P : Permutation (queue s ++ open s ++ lost s) (n :: remove_at i (queue s) ++ open s ++ lost s)).
  { rewrite (remove_perm _ _ _ N) at 1. reflexivity. }
  eapply Permutation_NoDup in ND; [|exact P]. inversion_clear ND as [|? ? NI _]. rewrite !in_app_iff in NI. tauto.
Qed.
Print Assumptions C75_answered.

(** ** Cases *)

Definition ali := bs "ali". Definition bob := bs "bob". Definition cat := bs "cat". Definition dan := bs "dan".
Definition eve := bs "eve".
Definition idb := [1%N]. Definition idc := [2%N]. Definition ide := [5%N].
Definition day : list event :=
  [ Connect true; Find bob true; Invited ide true [(cat, true); (ali, true); (eve, true); (dan, true); (bob, true)];
    Written 1; Written 0; Reply 1 false; Enlist cat idc; Written 0; Reply 1 false; Reply 0 false;
    Contact bob idb; Delist cat; Find cat true ].

(** The user looks up bob; eve's invitation names five nicks, of which two are looked up;
    the replies come out of order; the second of two lookups of cat waits in the queue.
    A lookup of eve is refused: eve is a contact. *)
Example C75_case :
  match run true (start ali [(eve, ide)] [(bob, idb)]) day with
  | Some s => (asked s, outs s, queue s, open s, lost s) =
      ([(bob, User); (cat, Invite ide); (dan, Invite ide); (cat, User)],
       [(bob, Begun idb); (dan, Unknown); (cat, Begun idc)], [cat], [], []) /\ step true s (Find eve true) = None
  | None => False
  end.
Proof. vm_compute. repeat split. Qed.

(** Two lookups, one written when the connection breaks: the one that was queued is
    answered on the next connection, the other is refused from then on, until the client
    is started anew. *)
Definition broken : list event :=
  [ Connect true; Find bob true; Find dan true; Written 0; Break; Connect true; Written 0; Reply 0 false ].
Example C75_broken :
  match run true (start ali [] [(bob, idb)]) broken with
  | Some s => (outs s, lost s, pend s) = ([(dan, Unknown)], [bob], [bob]) /\ step true s (Find bob true) = None /\
      step true s (Talk bob true) = None /\
      (exists s', run true s [Restart; Connect true; Find bob true; Written 0; Reply 0 false] = Some s' /\ outs s' = [(bob, Begun idb)])
  | None => False
  end.
Proof. vm_compute. repeat split. eexists; split; reflexivity. Qed.

(** A reply without a nick leaves the nick pending, and begins a key exchange all the same. *)
Example C75_nameless :
  match run false (start ali [] []) [Connect true; Find bob true; Written 0; Forged [] (Some idc) false] with
  | Some s => (outs s, pend s) = ([([], Begun idc)], [bob])
  | None => False
  end.
Proof. reflexivity. Qed.
