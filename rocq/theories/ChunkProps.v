(** C38: a file that is sent arrives as it was.  C39: what a transfer may do to the
    receiver's files. *)
From Verif Require Import Base XdrModel XdrProofs RpcModel RpcProofs HexModel UiModel BlobProps AcctProofs ChunkModel ChunkProofs.
Local Open Scope N_scope.

(** * Specification *)

(** Messages as they arrive over the wire. *)
Definition wire_event (e : tevent) : Prop :=
  Forall is_byte (sender e) /\
  match e with
  | TNew _ cn _ _ => ChunkNew_ok 0 cn /\ Forall is_byte (ChunkNew_Digest cn)
  | TChunk _ c _ _ => Forall is_byte (Chunk_Digest c) /\ u64_ok (Chunk_Offset c)
  end.

(** Announcements of a file name without directories. *)
Definition polite (e : tevent) : Prop :=
  match e with TNew _ cn _ _ => plain (ChunkNew_Filename cn) | TChunk _ _ _ _ => True end.
(** So were those that were noted down before. *)
Definition tidy (base : path) (d : disk) : Prop :=
  forall x b cn r, file_at d (bs "descriptor.xdr" :: hex_encode x :: base) = Some b ->
    dec ChunkNew_codec 0 b = Some (cn, r) -> plain (ChunkNew_Filename cn).

(** Nothing is in the way of files from [from]. *)
Definition way_clear (base : path) (d : disk) (from : bytes) : Prop :=
  is_dir d base = true /\ file_at d (hex_encode from :: base) = None /\
  forall y, is_dir d (y :: hex_encode from :: base) = false.

(** What one sender did, and what came of it. *)
Definition theirs (from : bytes) (t : list (tevent * tout)) : list (tevent * tout) :=
  filter (fun eo => eqb (sender (fst eo)) from) t.

(** The last file that [from] announced. *)
Definition announced (from : bytes) (t : list (tevent * tout)) : option ChunkNew :=
  fold_left (fun a eo => match fst eo with
                         | TNew x cn _ _ => if eqb x from then Some cn else a
                         | TChunk _ _ _ _ => a
                         end) t None.

(** * Proof *)

Lemma tail_ne {A} (x y : A) l : x :: y :: l <> l.
Proof. intros E. apply (f_equal (@length A)) in E. cbn in E. lia. Qed.
Lemma tail_ne1 {A} (x y z : A) l : x :: y :: l <> z :: l.
Proof. intros E. apply (f_equal (@length A)) in E. cbn in E. lia. Qed.

Lemma least (f : nat -> bool) : (exists k, f k = false) -> exists k, f k = false /\ forall j, (j < k)%nat -> f j = true.
Proof.
  intros [k H]. revert H. induction k as [k IH] using (well_founded_induction lt_wf). intros H.
  assert (D : forall n, (exists j, (j < n)%nat /\ f j = false) \/ forall j, (j < n)%nat -> f j = true).
  { induction n as [|n [(j & L & Hj)|A]]; [right; lia|left; exists j; split; auto; lia|].
    destruct (f n) eqn:E; [|left; exists n; split; auto].
    right. intros j L. destruct (Nat.eq_dec j n) as [->|]; auto. apply A. lia. }
  destruct (D k) as [(j & L & Hj)|A]; [now apply (IH j)|]. eauto.
Qed.

Lemma free_place base (d : disk) name : ~ In 47 name -> exists k, there d (candidate base name k) = false.
Proof.
  intros H. set (n := length (mkeys d)).
  destruct (existsb (fun k => negb (there d (candidate base name (S k)))) (seq 0 (S n))) eqn:E.
  { apply existsb_exists in E as (k & _ & E). apply negb_true_iff in E. eauto. }
  exfalso.
  assert (I : incl (map (fun k => candidate base name (S k)) (seq 0 (S n))) (mkeys d)).
  { intros p Ip. apply in_map_iff in Ip as (k & <- & Ik).
    assert (T : there d (candidate base name (S k)) = true).
    { destruct (there d (candidate base name (S k))) eqn:T; auto. exfalso.
      assert (X : existsb (fun k => negb (there d (candidate base name (S k)))) (seq 0 (S n)) = true).
      { apply existsb_exists. exists k. split; auto. now rewrite T. }
      congruence. }
    rewrite candidate_later in * by auto. unfold there in T.
    destruct (mget d ((repeat 49 (S k) ++ name) :: base)) eqn:G; [|discriminate]. eapply mget_Some_keys; eauto. }
  apply NoDup_incl_length in I.
  - rewrite map_length, seq_length in I. lia.
  - apply FinFun.Injective_map_NoDup; [|apply seq_NoDup].
    intros j k Q. rewrite !candidate_later in Q by auto. apply (f_equal (fun p => length (hd [] p))) in Q.
    cbn [hd] in Q. rewrite !app_length, !repeat_length in Q. lia.
Qed.

Section Runs.
  Variable sha : bytes -> bytes.
  Variable base : path.
  Notation tstep := (tstep sha base).
  Notation truns := (truns sha base).

  Lemma stays d e o d' p n : tstep d e o d' -> mget d p = Some n ->
    p <> desc_of base (sender e) -> p <> spool_of base (sender e) (digest_of e) -> mget d' p = Some n.
  Proof.
    intros St G A B. destruct (frame _ _ _ _ _ _ p St) as [E|[E|[E|[(E & _)|(E & _)]]]]; try congruence.
  Qed.
  Lemma dir_stays d e o d' p : tstep d e o d' -> is_dir d p = true ->
    p <> desc_of base (sender e) -> p <> spool_of base (sender e) (digest_of e) -> is_dir d' p = true.
  Proof. intros St G A B. eapply is_dir_keeps; [|exact G]. intros n E. eapply stays; eauto. Qed.

  Lemma base_stays d e o d' : tstep d e o d' -> is_dir d base = true -> is_dir d' base = true.
  Proof. intros St G. eapply dir_stays; eauto; intros E; symmetry in E; now apply tail_ne in E. Qed.
  Lemma senders_dir_stays d e o d' x : tstep d e o d' -> is_dir d (x :: base) = true -> is_dir d' (x :: base) = true.
  Proof. intros St G. eapply dir_stays; eauto; intros E; symmetry in E; now apply tail_ne1 in E. Qed.
  Lemma file_stays d e o d' x b : tstep d e o d' -> file_at d (x :: base) = Some b -> file_at d' (x :: base) = Some b.
  Proof.
    intros St G. apply file_at_Some in G. unfold file_at.
    rewrite (stays _ _ _ _ (x :: base) (File b) St G); auto; intros E; symmetry in E; now apply tail_ne1 in E.
  Qed.

  Lemma preserved d t d' p n : truns d t d' -> mget d p = Some n ->
    (forall e o y, In (e, o) t -> p <> y :: hex_encode (sender e) :: base) -> mget d' p = Some n.
  Proof.
    induction 1 as [|d e o d1 t d' St R IH]; auto. intros G H. apply IH.
    - eapply stays; eauto; eapply (H e o); now left.
    - intros e' o' y I. eapply H. right. eauto.
  Qed.

  (** A descriptor is (a part of) an announcement. *)
  Lemma new_descriptor d from cn f known o d' : (o, d') = handle_new base d from cn f known ->
    file_at d' (desc_of base from) = file_at d (desc_of base from) \/
    exists k, file_at d' (desc_of base from) = Some (firstn k (enc ChunkNew_codec cn)).
  Proof.
    unfold handle_new. intros E.
    assert (M : forall q, file_at (mkdir_all d q) (desc_of base from) = file_at d (desc_of base from)).
    { intros q. unfold file_at. destruct (mkdir_all_spec d q (desc_of base from)) as [->|(A & B & _)]; auto. now rewrite A, B. }
    assert (Full : forall n, enc ChunkNew_codec cn = firstn (length (enc ChunkNew_codec cn) + n) (enc ChunkNew_codec cn)).
    { intros n. now rewrite firstn_all2 by lia. }
    destruct f; try (apply pair_equal_spec in E as [_ ->]; rewrite M; auto; fail);
    repeat match type of E with context [create ?a ?b ?c] =>
      let K := fresh "K" in destruct (create a b c) eqn:K; [apply create_gives in K as (-> & _ & _)|] end;
    apply pair_equal_spec in E as [_ ->]; rewrite ?file_at_mset, ?eqb_refl, ?M; auto;
    right; try (eexists; reflexivity);
    try (destruct (eqb_spec (desc_of base from) (spool_of base from (ChunkNew_Digest cn))) as [Q|Q];
         [exists 0%nat; reflexivity|]);
    exists (length (enc ChunkNew_codec cn) + 0)%nat; now rewrite <- Full.
  Qed.

  Lemma part_of cn k cn' r : ChunkNew_ok 0 cn -> dec ChunkNew_codec 0 (firstn k (enc ChunkNew_codec cn)) = Some (cn', r) -> cn' = cn.
  Proof.
    intros Ok D. destruct good_ChunkNew as (R & _ & X).
    apply (X _ _ _ _ (skipn k (enc ChunkNew_codec cn))) in D. rewrite firstn_skipn in D.
    specialize (R 0 cn [] Ok). rewrite app_nil_r, D in R. congruence.
  Qed.

  Lemma desc_spool x y z : Forall is_byte z -> desc_of base x <> spool_of base y z.
  Proof. intros B E. unfold desc_of, spool_of in E. injection E as E _. symmetry in E. now apply descriptor_not_hex in E. Qed.

  (** Under polite announcements, completed files are in [base] itself. *)
  Lemma lands d e p d' : tidy base d -> wire_event e -> tstep d e (Complete p) d' ->
    exists k name, p = (repeat 49 k ++ name) :: base /\ plain name.
  Proof.
    intros T (Wx & W) St. apply complete_inv in St as (from & c & f & old & b & cn & r & k & -> & FO & _ & FD & Db & _ & _ & -> & _).
    cbn in W, Wx. rewrite file_at_mset in FD.
    destruct (eqb_spec (desc_of base from) (spool_of base from (Chunk_Digest c))) as [Q|_]; [now apply desc_spool in Q|].
    pose proof (T _ _ _ _ FD Db) as P. exists k, (ChunkNew_Filename cn). split; auto. now apply candidate_plain.
  Qed.

  (** Other descriptors do not change. *)
  Lemma desc_frame d e o d' x : tidy base d -> wire_event e -> tstep d e o d' ->
    desc_of base x <> desc_of base (sender e) -> file_at d' (desc_of base x) = file_at d (desc_of base x).
  Proof.
    intros T W St Nx. pose proof (frame _ _ _ _ _ _ (desc_of base x) St) as F. unfold file_at.
    destruct F as [->|[E|[E|[(E & E' & l & _)|(_ & ->)]]]]; auto; try congruence.
    - exfalso. apply desc_spool in E; auto. destruct W as (Wx & W), e; cbn [digest_of] in *; tauto.
    - now rewrite E, E'.
    - destruct (lands _ _ _ _ T W St) as (k & name & E & _). exfalso. now apply tail_ne1 in E.
  Qed.

  (** A chunk leaves the descriptor or removes it. *)
  Lemma chunk_desc d from c f known o d' : wire_event (TChunk from c f known) -> tidy base d ->
    handle_chunk sha base d from c f known o d' ->
    file_at d' (desc_of base from) = file_at d (desc_of base from) \/ file_at d' (desc_of base from) = None.
  Proof.
    intros (Wx & W) Td E. cbn in Wx, W.
    assert (Ne : eqb (desc_of base from) (spool_of base from (Chunk_Digest c)) = false) by (apply eqb_neq; now apply desc_spool).
    apply chunk_cases in E as [(_ & ->)|(old & FO & SO & E)]; auto.
    destruct E as [(_ & b & ->)|E]; [rewrite file_at_mset, Ne; auto|]. cbv zeta in E. set (d1 := mset d _ _) in *.
    assert (M : file_at d1 (desc_of base from) = file_at d (desc_of base from)) by (unfold d1; now rewrite file_at_mset, Ne).
    destruct E as (b & cn & r & FD & Db & E).
    apply finish_cases in E as [(-> & _)|(_ & _ & _ & k & T & _ & Mv)]; auto.
    apply move_cases in Mv as [(_ & ->)|(_ & _ & _ & ->)]; auto. cbv zeta.
    assert (Nc : eqb (desc_of base from) (candidate base (ChunkNew_Filename cn) k) = false).
    { apply eqb_neq. intros Q. rewrite <- Q in T. apply there_false in T as (_ & T). unfold file_at in FD. rewrite T in FD. discriminate. }
    destruct f; rewrite ?file_at_mdel, ?eqb_refl; auto; rewrite file_at_mset, Nc, file_at_mdel, Ne; auto.
  Qed.

  Lemma tidy_step d e o d' : tidy base d -> wire_event e -> polite e -> tstep d e o d' -> tidy base d'.
  Proof.
    intros T W P St x b cn r FD Db. change (bs "descriptor.xdr" :: hex_encode x :: base) with (desc_of base x) in FD.
    destruct (EqB_dec (desc_of base x) (desc_of base (sender e))) as [E|Nx].
    - rewrite E in FD. destruct e as [from cn0 f known|from c f known]; cbn [sender] in *.
      + destruct (new_descriptor _ _ _ _ _ _ _ St) as [Q|[k Q]]; rewrite FD in Q.
        * eapply T; eauto.
        * injection Q as ->. apply part_of in Db as ->; auto. destruct W as (_ & W); tauto.
      + destruct (chunk_desc _ _ _ _ _ _ _ W T St) as [Q|Q]; rewrite FD in Q; [|discriminate]. eapply T; eauto.
    - rewrite (desc_frame _ _ _ _ _ T W St Nx) in FD. eapply T; eauto.
  Qed.

  Lemma tidy_run d t d' : truns d t d' -> tidy base d -> Forall (fun eo => wire_event (fst eo) /\ polite (fst eo)) t -> tidy base d'.
  Proof.
    induction 1 as [|d e o d1 t d' St R IH]; auto. intros T H. inversion H as [|? ? (W & P) H']; subst. cbn in W, P.
    apply IH; auto. eapply tidy_step; eauto.
  Qed.

  (** The sender's directory, once made. *)
  Lemma clear_step d e o d' from : tidy base d -> wire_event e -> tstep d e o d' ->
    is_dir d base = true -> is_dir d (dir_of base from) = true -> (forall y, is_dir d (y :: dir_of base from) = false) ->
    is_dir d' base = true /\ is_dir d' (dir_of base from) = true /\ (forall y, is_dir d' (y :: dir_of base from) = false).
  Proof.
    intros T W St B D C. split; [|split].
    - eapply base_stays; eauto.
    - eapply senders_dir_stays; eauto.
    - intros y. specialize (C y). unfold is_dir in *.
      destruct (mget d' (y :: dir_of base from)) as [n|] eqn:G; auto. destruct n; auto. exfalso.
      pose proof (frame _ _ _ _ _ _ (y :: dir_of base from) St) as F.
      assert (L : forall l, dir_of base (sender e) <> l ++ y :: dir_of base from).
      { intros l E. apply (f_equal (@length _)) in E. rewrite app_length in E. unfold dir_of in E. cbn in E. lia. }
      assert (Fl : forall q, q = desc_of base (sender e) \/ q = spool_of base (sender e) (digest_of e) -> mget d' q <> Some Dir \/ mget d' q = mget d q).
      { intros q Hq. destruct e as [x cn f known|x c f known]; cbn [ChunkModel.tstep sender digest_of] in *.
        - assert (M : mget (mkdir_all d (dir_of base x)) q = mget d q).
          { destruct (mkdir_all_spec d (dir_of base x) q) as [|(_ & _ & _ & l & E)]; auto. exfalso.
            apply (f_equal (@length _)) in E. rewrite app_length in E. destruct Hq; subst q; unfold dir_of, desc_of, spool_of in E; cbn in E; lia. }
          unfold handle_new in St.
          destruct f; try (apply pair_equal_spec in St as [_ ->]; auto; fail);
          repeat match type of St with context [create ?a ?b ?c] =>
            let K := fresh "K" in destruct (create a b c) eqn:K; [apply create_gives in K as (-> & _ & _)|] end;
          apply pair_equal_spec in St as [_ ->]; auto; rewrite ?mget_mset; repeat match goal with |- context [eqb ?a ?b] => destruct (eqb a b) end;
          auto; left; discriminate.
        - apply chunk_cases in St as [(_ & ->)|(old & FO & SO & E)]; auto.
          destruct E as [(_ & b & ->)|E]; [rewrite mget_mset; destruct (eqb _ _); auto; left; discriminate|].
          cbv zeta in E. destruct E as (b & cn & r & FD & Db & E).
          apply finish_cases in E as [(-> & _)|(_ & _ & _ & k & Th & _ & Mv)].
          { rewrite mget_mset; destruct (eqb _ _); auto; left; discriminate. }
          apply move_cases in Mv as [(_ & ->)|(_ & _ & _ & ->)].
          { rewrite mget_mset; destruct (eqb _ _); auto; left; discriminate. }
          cbv zeta. destruct f; rewrite ?mget_mdel, ?mget_mset, ?mget_mdel, ?mget_mset;
          repeat match goal with |- context [eqb ?a ?b] => destruct (eqb a b) end; auto; left; discriminate. }
      destruct F as [F|[F|[F|[(_ & _ & l & F)|(_ & ->)]]]].
      + unfold is_dir in C. rewrite F in G. rewrite G in C. discriminate.
      + destruct (Fl _ (or_introl F)) as [X|X]; [congruence|]. rewrite X in G. rewrite G in C. discriminate.
      + destruct (Fl _ (or_intror F)) as [X|X]; [congruence|]. rewrite X in G. rewrite G in C. discriminate.
      + now apply L in F.
      + destruct (lands _ _ _ _ T W St) as (k & name & E & _). now apply tail_ne1 in E.
  Qed.

  (** What [from]'s new announcement leaves, if nothing is in the way. *)
  Lemma new_works d from cn : way_clear base d from -> Forall is_byte (ChunkNew_Digest cn) ->
    exists d1, handle_new base d from cn Works true = (Quiet, d1) /\
      is_dir d1 base = true /\ is_dir d1 (dir_of base from) = true /\ (forall y, is_dir d1 (y :: dir_of base from) = false) /\
      file_at d1 (desc_of base from) = Some (enc ChunkNew_codec cn) /\
      file_at d1 (spool_of base from (ChunkNew_Digest cn)) = Some [] /\
      forall p, p <> dir_of base from -> p <> desc_of base from -> p <> spool_of base from (ChunkNew_Digest cn) ->
        mget d p = None -> is_dir d base = true -> mget d1 p = None \/ p = base \/ exists l, base = l ++ p.
  Proof.
    intros (B & D & C) Bd. set (dd := mkdir_all d (dir_of base from)).
    change (hex_encode from :: base) with (dir_of base from) in *.
    assert (B1 : is_dir dd base = true) by (apply (is_dir_keeps d); auto; intros; now apply mkdir_all_keeps).
    assert (D1 : is_dir dd (dir_of base from) = true) by (now apply mkdir_all_makes).
    assert (C1 : forall y, is_dir dd (y :: dir_of base from) = false).
    { intros y. specialize (C y). unfold is_dir in *. unfold dd.
      destruct (mkdir_all_spec d (dir_of base from) (y :: dir_of base from)) as [->|(_ & _ & _ & l & E)]; auto. exfalso.
      apply (f_equal (@length _)) in E. rewrite app_length in E. cbn in E. lia. }
    assert (Ne : eqb (desc_of base from) (spool_of base from (ChunkNew_Digest cn)) = false) by (apply eqb_neq; now apply desc_spool).
    set (d2 := mset dd (desc_of base from) (File (enc ChunkNew_codec cn))).
    assert (Nf : forall p y, is_dir dd p = true -> p <> y :: dir_of base from -> forall b, is_dir (mset dd (y :: dir_of base from) (File b)) p = true).
    { intros p y Hp Np b. apply (is_dir_keeps dd); auto. intros n. now rewrite mget_mset_ne. }
    assert (D2 : is_dir d2 (dir_of base from) = true).
    { apply Nf; auto. intros E. apply (f_equal (@length _)) in E. cbn in E. lia. }
    assert (B2 : is_dir d2 base = true).
    { apply Nf; auto. intros E. apply (f_equal (@length _)) in E. cbn in E. lia. }
    assert (Cf : forall (dk : disk) q b p, is_dir dk p = false -> is_dir (mset dk q (File b)) p = false).
    { intros dk q b [|x p]; [discriminate|]. unfold is_dir. rewrite mget_mset. now destruct (eqb (x :: p) q). }
    assert (C2 : forall y, is_dir d2 (y :: dir_of base from) = false) by (intros y; apply Cf, C1).
    set (d3 := mset d2 (spool_of base from (ChunkNew_Digest cn)) (File [])).
    exists d3. split; [|split; [|split; [|split; [|split; [|split]]]]].
    - unfold handle_new. fold dd. rewrite create_works; [|exact D1|apply C1]. fold d2. rewrite create_works; [reflexivity|exact D2|apply C2].
    - apply (is_dir_keeps d2); auto. intros n. unfold d3. rewrite mget_mset_ne; auto. intros E. apply (f_equal (@length _)) in E. cbn in E. lia.
    - apply (is_dir_keeps d2); auto. intros n. unfold d3. rewrite mget_mset_ne; auto. intros E. apply (f_equal (@length _)) in E. cbn in E. lia.
    - intros y. apply Cf, C2.
    - unfold d3, d2. now rewrite !file_at_mset, Ne, eqb_refl.
    - unfold d3. now rewrite file_at_mset, eqb_refl.
    - intros p N1 N2 N3 G _. unfold d3, d2. rewrite !mget_mset_ne by auto. unfold dd.
      destruct (mkdir_all_spec d (dir_of base from) p) as [->|(_ & _ & _ & l & E)]; auto.
      destruct l as [|x l]; [cbn in E; congruence|]. injection E as _ E. right; right. eauto.
  Qed.

  (** ** A transfer under way *)

  Lemma chunks_cons dg off b r : chunks dg off (b :: r) = mkChunk off dg b :: chunks dg (off + N.of_nat (length b)) r.
  Proof. reflexivity. Qed.

  Lemma reads_spec size file l : reads size file l -> file = concat l /\ Forall (fun b => b <> []) l.
  Proof. induction 1 as [|b rest l Nb L R (-> & F)]; split; auto; constructor; auto. Qed.

  Lemma landed_stays d t d' x b : truns d t d' -> file_at d (x :: base) = Some b -> file_at d' (x :: base) = Some b.
  Proof. induction 1 as [|d e o d1 t d' St R IH]; auto. intros G. apply IH. eapply file_stays; eauto. Qed.

  Lemma clear_run d t d' from : truns d t d' -> tidy base d ->
    Forall (fun eo => wire_event (fst eo) /\ polite (fst eo)) t ->
    is_dir d base = true -> is_dir d (dir_of base from) = true -> (forall y, is_dir d (y :: dir_of base from) = false) ->
    is_dir d' base = true /\ is_dir d' (dir_of base from) = true /\ (forall y, is_dir d' (y :: dir_of base from) = false).
  Proof.
    induction 1 as [|d e o d1 t d' St R IH]; auto. intros T H B D C.
    inversion H as [|? ? (W & P) H']; subst. cbn [fst] in W, P.
    destruct (clear_step _ _ _ _ from T W St B D C) as (B1 & D1 & C1).
    apply IH; auto. eapply tidy_step; eauto.
  Qed.

  Lemma there_step d e o d' x : tstep d e o d' -> there d (x :: base) = true -> there d' (x :: base) = true.
  Proof.
    intros St H. unfold there in *. destruct (mget d (x :: base)) as [n|] eqn:G; [|discriminate].
    rewrite (stays _ _ _ _ (x :: base) n St G); auto; intros E; symmetry in E; now apply tail_ne1 in E.
  Qed.
  Lemma there_run d t d' x : truns d t d' -> there d (x :: base) = true -> there d' (x :: base) = true.
  Proof. induction 1 as [|d e o d1 t d' St R IH]; auto. intros G. apply IH. eapply there_step; eauto. Qed.

  Lemma transfer from cn file : ChunkNew_ok 0 cn -> Forall is_byte from -> Forall is_byte (ChunkNew_Digest cn) ->
    plain (ChunkNew_Filename cn) -> ChunkNew_Size cn = N.of_nat (length file) -> N.of_nat (length file) < 2 ^ 63 ->
    sha file = ChunkNew_Digest cn ->
    forall d t d', truns d t d' -> forall done rest, done ++ concat rest = file -> rest <> [] -> Forall (fun b => b <> []) rest ->
    tidy base d -> Forall (fun eo => wire_event (fst eo) /\ polite (fst eo)) t ->
    is_dir d base = true -> is_dir d (dir_of base from) = true -> (forall y, is_dir d (y :: dir_of base from) = false) ->
    file_at d (desc_of base from) = Some (enc ChunkNew_codec cn) ->
    file_at d (spool_of base from (ChunkNew_Digest cn)) = Some done ->
    map fst (theirs from t) = map (fun c => TChunk from c Works true) (chunks (ChunkNew_Digest cn) (N.of_nat (length done)) rest) ->
    exists k p, map snd (theirs from t) = repeat Quiet (length rest - 1) ++ [Complete p] /\
      p = (repeat 49 k ++ ChunkNew_Filename cn) :: base /\ file_at d' p = Some file /\
      (there d p = false /\ forall j, (j < k)%nat -> there d' ((repeat 49 j ++ ChunkNew_Filename cn) :: base) = true) /\
      is_dir d' base = true /\ is_dir d' (dir_of base from) = true /\ (forall y, is_dir d' (y :: dir_of base from) = false).
  Proof.
    intros Ok Bf Bd Pl Sz Lt Sh. set (dg := ChunkNew_Digest cn) in *.
    assert (Ne : desc_of base from <> spool_of base from dg) by now apply desc_spool.
    induction 1 as [d|d e o d1 t d' St R IH]; intros done rest Cat Nr Nb T H B D C FD FS Ev.
    { destruct rest; [congruence|discriminate]. }
    inversion H as [|? ? (W & P) H']; subst. cbn [fst] in W, P.
    destruct (clear_step _ _ _ _ from T W St B D C) as (B1 & D1 & C1).
    pose proof (tidy_step _ _ _ _ T W P St) as T1.
    unfold theirs in Ev |- *. cbn [filter fst] in Ev |- *. fold (theirs from t) in Ev |- *.
    destruct (eqb_spec (sender e) from) as [Se|Se].
    2: { (* somebody else *)
      assert (Nh : hex_encode from <> hex_encode (sender e)).
      { intros E. apply hex_inj in E; auto. now destruct W. }
      destruct (IH done rest) as (k & p & A1 & A2 & A3 & (A4 & A5) & A6); auto.
      - rewrite <- FD. apply (desc_frame _ _ _ _ from T W St). unfold desc_of, dir_of. congruence.
      - apply file_at_Some in FS. unfold file_at. rewrite (stays _ _ _ _ _ _ St FS); auto;
        unfold spool_of, desc_of, dir_of; congruence.
      - exists k, p. split; auto. split; auto. split; auto. split; auto. split; auto.
        destruct (there d p) eqn:Tp; auto. subst p. rewrite (there_step _ _ _ _ _ St Tp) in A4. discriminate. }
    cbn [map fst snd] in Ev |- *. destruct rest as [|b rest]; [congruence|]. rewrite chunks_cons in Ev. cbn [map] in Ev.
    injection Ev as -> Ev. pose proof St as St0. cbn [ChunkModel.tstep] in St. clear W P Se.
    unfold handle_chunk in St. cbn [Chunk_Digest Chunk_Offset Chunk_Payload] in St.
    assert (Ld : N.of_nat (length done) < 2 ^ 63) by (rewrite app_length in Lt; lia).
    rewrite FS, same_size_refl in St by exact Ld. cbn [negb] in St. cbv zeta in St.
    set (dm := mset d (spool_of base from dg) (File (done ++ b))) in *.
    assert (FDm : file_at dm (desc_of base from) = Some (enc ChunkNew_codec cn)).
    { unfold dm. rewrite file_at_mset. apply eqb_neq in Ne. now rewrite Ne. }
    rewrite FDm in St. destruct good_ChunkNew as (Rt & _ & _). pose proof (Rt 0 cn [] Ok) as Dc. rewrite app_nil_r in Dc. rewrite Dc in St.
    unfold finish in St.
    inversion Nb as [|? ? Nb0 Nb']; subst. cbn [concat] in *.
    destruct rest as [|b' rest].
    - (* the last chunk *)
      cbn [concat] in *. rewrite app_nil_r in *.
      rewrite Sz, same_size_refl in St by exact Lt. cbn [negb] in St. rewrite Sh, eqb_refl in St. cbn [negb] in St.
      destruct (free_place base dm (ChunkNew_Filename cn)) as [k0 Fr]; [apply Pl|].
      destruct St as [(k & Tk & Ek & Mv)|(A & _ & _)]; [|rewrite A in Fr; discriminate].
      unfold move in Mv. rewrite candidate_plain in Mv by auto. cbn [tl] in Mv.
      assert (Bm : is_dir dm base = true).
      { apply (is_dir_keeps d); auto. intros n. unfold dm. rewrite mget_mset_ne; auto. intros E. symmetry in E. now apply tail_ne in E. }
      rewrite Bm in Mv. apply pair_equal_spec in Mv as [-> ->].
      set (p := (repeat 49 k ++ ChunkNew_Filename cn) :: base) in *.
      assert (G : file_at (mdel (mset (mdel dm (spool_of base from dg)) p (File (done ++ b))) (desc_of base from)) p = Some (done ++ b)).
      { rewrite file_at_mdel, file_at_mset, eqb_refl. destruct (eqb_spec p (desc_of base from)) as [E|]; auto.
        symmetry in E. now apply tail_ne1 in E. }
      assert (Td : forall x, there dm (x :: base) = there d (x :: base)).
      { intros x. unfold there, dm. rewrite mget_mset_ne; auto. intros E. symmetry in E. now apply tail_ne1 in E. }
      exists k, p. split; [|split; [reflexivity|split; [|split; [split|]]]].
      + cbn [length repeat Nat.sub app]. destruct (theirs from t) as [|x l]; [reflexivity|]. discriminate.
      + eapply landed_stays; eauto.
      + unfold p. rewrite <- Td. now rewrite candidate_plain in Tk.
      + intros j L. apply Ek in L. rewrite candidate_plain, Td in L by auto.
        eapply there_run; [exact R|]. eapply (there_step d (TChunk from (mkChunk (N.of_nat (length done)) dg b) Works true)); [exact St0|exact L].
      + eapply clear_run; eauto.
    - (* there is more *)
      assert (Sm : same_size (length (done ++ b)) (ChunkNew_Size cn) = false).
      { destruct (same_size _ _) eqn:E; auto. exfalso. apply same_size_spec in E.
        - rewrite Sz in E. apply Nat2N.inj in E. rewrite !app_length in E.
          inversion Nb' as [|? ? Nb1 _]; subst. destruct b'; [congruence|]. cbn [concat app length] in E. lia.
        - rewrite Sz. change (2 ^ 63) with 9223372036854775808 in Lt. change (2 ^ 64) with 18446744073709551616. lia. }
      rewrite Sm in St. cbn [negb] in St. destruct St as [-> ->].
      destruct (IH (done ++ b) (b' :: rest)) as (k & p & Eo & Ep & Gp & (Tp & Tj) & Rest); auto; try discriminate.
      + cbn [concat]. now rewrite <- app_assoc.
      + unfold dm. now rewrite file_at_mset, eqb_refl.
      + rewrite app_length, Nat2N.inj_add. exact Ev.
      + exists k, p. split; [|split; [auto|split; [auto|split; [split; [|auto]|auto]]]].
        * rewrite Eo. cbn [length]. now replace (S (S (length rest)) - 1)%nat with (S (S (length rest) - 1)) by lia.
        * destruct (there d p) eqn:Q; auto. subst p. rewrite (there_step _ _ _ _ _ St0 Q) in Tp. discriminate.
  Qed.
End Runs.

(** * C38 *)

(** A file is sent; it is announced to a client which knows the sender and in whose
    spool nothing is in the way, and whose disk works for this transfer; its chunks
    arrive in order, between messages of any other senders, with whatever disk
    failures, that announce names without directories.  Then, however the file was
    split, it is reported exactly once, at its last chunk, under its name or that
    name behind as many 1s as needed; there is the file as it was sent; it stays there; and the
    way is clear for the next. *)
Theorem C38_arrives : forall sha base size limit name descr mime file l cn cs d from o t d',
  send sha size limit name descr mime file l = Some (cn, cs) -> reads size file l ->
  plain name -> ChunkNew_ok 0 cn -> Forall is_byte from -> Forall is_byte (sha file) -> N.of_nat (length file) < 2 ^ 63 ->
  way_clear base d from -> tidy base d ->
  truns sha base d ((TNew from cn Works true, o) :: t) d' ->
  map fst (theirs from t) = map (fun c => TChunk from c Works true) cs ->
  Forall (fun eo => wire_event (fst eo) /\ polite (fst eo)) t ->
  exists k p, o = Quiet /\ map snd (theirs from t) = repeat Quiet (length cs - 1) ++ [Complete p] /\
    p = (repeat 49 k ++ name) :: base /\ file_at d' p = Some file /\
    there d p = false /\ (forall j, (j < k)%nat -> there d' ((repeat 49 j ++ name) :: base) = true) /\
    way_clear base d' from.
Proof.
  intros sha base size limit name descr mime file l cn cs d from o t d' Se Re Pl Ok Bf Bs Lt Wc T R Ev H.
  unfold send in Se. destruct (limit <? N.of_nat (length file)); [discriminate|].
  assert (Nf : file <> []) by (intros ->; discriminate).
  assert (Q : cn = mkChunkNew (N.of_nat (length file)) size name descr mime (sha file) /\ cs = chunks (sha file) 0 l).
  { destruct file; [congruence|]. injection Se as <- <-. auto. }
  destruct Q as [Ec ->]. clear Se. apply reads_spec in Re as [Cat Nb].
  inversion R as [|? ? ? d1 ? ? St R']; subst d0 e o0 t0 d'0. cbn [tstep] in St.
  assert (Dg : ChunkNew_Digest cn = sha file) by now rewrite Ec.
  destruct (new_works sha base d from cn Wc) as (d1' & Hn & B & D & C & FD & FS & _); [now rewrite Dg|].
  rewrite Hn in St. apply pair_equal_spec in St as [-> ->].
  assert (T1 : tidy base d1').
  { eapply (tidy_step sha base d (TNew from cn Works true) Quiet); auto.
    - split; cbn; auto. split; auto. now rewrite Dg.
    - cbn. now rewrite Ec.
    - cbn [tstep]. now symmetry. }
  assert (A : exists k p, map snd (theirs from t) = repeat Quiet (length l - 1) ++ [Complete p] /\
      p = (repeat 49 k ++ ChunkNew_Filename cn) :: base /\ file_at d' p = Some file /\
      (there d1' p = false /\ forall j, (j < k)%nat -> there d' ((repeat 49 j ++ ChunkNew_Filename cn) :: base) = true) /\
      is_dir d' base = true /\ is_dir d' (dir_of base from) = true /\ (forall y, is_dir d' (y :: dir_of base from) = false)).
  { apply (transfer sha base from cn file Ok Bf) with (d := d1') (t := t) (d' := d') (done := @nil N) (rest := l); auto; try (now rewrite Ec).
    - intros ->. cbn in Cat. congruence.
    }
  destruct A as (k & p & A).
  exists k, p. destruct A as (A1 & A2 & A3 & (A7 & A8) & A4 & A5 & A6). split; auto. split.
  - rewrite A1. f_equal. f_equal. assert (L : forall dg off, length (chunks dg off l) = length l).
      { clear. induction l; intros; cbn; auto. } now rewrite L.
  - split; [rewrite A2, Ec; reflexivity|]. split; auto. split.
    { destruct (there d p) eqn:Q; auto. subst p.
      rewrite (there_step sha base d (TNew from cn Works true) Quiet d1' _ (eq_sym Hn) Q) in A7. discriminate. }
    split; [intros j L; apply A8 in L; now rewrite Ec in L|]. split; auto. split; auto.
      unfold file_at, is_dir in *. destruct (mget d' (hex_encode from :: base)) as [[]|] eqn:E; auto.
      unfold dir_of in A5. rewrite E in A5. discriminate.
Qed.
Print Assumptions C38_arrives.

(** What is sent: chunks of at least one byte and at most the agreed size, each at
    the offset where the one before it ended, together the file; and whatever the
    size, every file can be split. *)
Theorem C38_chunks : forall sha size limit name descr mime file l cn cs,
  send sha size limit name descr mime file l = Some (cn, cs) -> reads size file l ->
  ChunkNew_Size cn = N.of_nat (length file) /\ ChunkNew_Digest cn = sha file /\ ChunkNew_Filename cn = name /\
  concat (map Chunk_Payload cs) = file /\
  forall before c after, cs = before ++ c :: after ->
    Chunk_Offset c = N.of_nat (length (concat (map Chunk_Payload before))) /\ Chunk_Digest c = sha file /\
    0 < N.of_nat (length (Chunk_Payload c)) <= size.
Proof.
  intros sha size limit name descr mime file l cn cs S R. unfold send in S.
  destruct (limit <? N.of_nat (length file)); [discriminate|].
  assert (Q : cn = mkChunkNew (N.of_nat (length file)) size name descr mime (sha file) /\ cs = chunks (sha file) 0 l).
  { destruct file; [discriminate|]. injection S as <- <-. auto. }
  destruct Q as [-> ->]. clear S. cbn. split; auto. split; auto. split; auto. split.
  - apply reads_spec in R as [-> _]. generalize 0. generalize (sha (concat l)). clear. intros dg.
    induction l as [|b l IH]; intros off; cbn; auto. now rewrite IH.
  - assert (G : forall dg off before c after, chunks dg off l = before ++ c :: after ->
      Chunk_Offset c = off + N.of_nat (length (concat (map Chunk_Payload before))) /\ Chunk_Digest c = dg /\
      0 < N.of_nat (length (Chunk_Payload c)) <= size).
    { clear - R. induction R as [|b rest l Nb Le R IH]; intros dg off before c after E; [destruct before; discriminate|].
      rewrite chunks_cons in E. destruct before as [|c0 before]; cbn [app] in E.
      - injection E as <- _. cbn. split; [lia|]. split; auto. destruct b; [congruence|]. cbn [length] in *. lia.
      - injection E as <- E. apply IH in E as (A & B & C). split; [|auto]. cbn [map Chunk_Payload concat]. rewrite app_length. lia. }
    intros before c after E. apply G in E. rewrite N.add_0_l in E. exact E.
Qed.
Print Assumptions C38_chunks.

Theorem C38_splits : forall size file, 0 < size -> exists l, reads size file l.
Proof.
  intros size file Hs. remember (length file) as n eqn:E. revert file E.
  induction n as [n IH] using (well_founded_induction lt_wf). intros [|x file] E; [exists []; constructor|].
  set (b := firstn (N.to_nat size) (x :: file)).
  assert (L : (0 < length b)%nat /\ N.of_nat (length b) <= size).
  { unfold b. rewrite firstn_length. cbn [length]. lia. }
  destruct (IH (length (skipn (N.to_nat size) (x :: file)))) with (file := skipn (N.to_nat size) (x :: file)) as [l R]; auto.
  - rewrite skipn_length. cbn [length] in *. lia.
  - exists (b :: l). rewrite <- (firstn_skipn (N.to_nat size) (x :: file)). constructor; auto; [|tauto].
    intros Q. fold b in Q. rewrite Q in L. cbn in L. lia.
Qed.
Print Assumptions C38_splits.

(** Nothing is sent of an empty file, nor of one over the server's limit. *)
Theorem C38_refused : forall sha size limit name descr mime file l,
  send sha size limit name descr mime file l = None <-> file = [] \/ limit < N.of_nat (length file).
Proof.
  intros. unfold send. destruct (N.ltb_spec limit (N.of_nat (length file))); [split; auto|].
  destruct file; [split; auto|]. split; [discriminate|]. intros [|]; [discriminate|lia].
Qed.
Print Assumptions C38_refused.

(** * C39 *)

(** Files hold bytes. *)
Definition bytes_only (d : disk) : Prop := forall p b, file_at d p = Some b -> Forall is_byte b.

(** A file is reported complete only for a known contact, when what is in the spool
    has the size and the digest that the descriptor says; then it is where nothing
    was before, as it was in the spool, and the spool is gone. *)
Theorem C39_complete : forall sha base d e p d', bytes_only d -> wire_event e -> tstep sha base d e (Complete p) d' ->
  exists from c f old b cn r, e = TChunk from c f true /\
    file_at d (hex_encode (Chunk_Digest c) :: hex_encode from :: base) = Some old /\
    N.of_nat (length old) = Chunk_Offset c /\
    file_at d (bs "descriptor.xdr" :: hex_encode from :: base) = Some b /\ dec ChunkNew_codec 0 b = Some (cn, r) /\
    N.of_nat (length (old ++ Chunk_Payload c)) = ChunkNew_Size cn /\ sha (old ++ Chunk_Payload c) = ChunkNew_Digest cn /\
    there d p = false /\ file_at d' p = Some (old ++ Chunk_Payload c) /\
    file_at d' (hex_encode (Chunk_Digest c) :: hex_encode from :: base) = None.
Proof.
  intros sha base d e p d' Bo (Wx & W) St.
  apply complete_inv in St as (from & c & f & old & b & cn & r & k & -> & FO & SO & FD & Db & SS & Sh & Ep & Th & _ & _ & G & FS & _).
  cbn in Wx, W. destruct W as [W Wo].
  rewrite file_at_mset in FD. destruct (eqb_spec (desc_of base from) (spool_of base from (Chunk_Digest c))) as [Q|_]; [now apply desc_spool in Q|].
  exists from, c, f, old, b, cn, r. split; auto. split; auto.
  split; [apply same_size_spec in SO; auto|]. split; auto. split; auto.
  destruct good_ChunkNew as (_ & Sd & _). destruct (Sd _ _ _ _ (Bo _ _ FD) Db) as ((Hs & _) & _).
  split; [apply same_size_spec in SS; auto|]. split; auto. split; auto. split; auto. unfold file_at. now rewrite G.
Qed.
Print Assumptions C39_complete.

(** Whatever arrives from whomever, with whatever names: what was on the disk
    outside the spools of the senders is still there, as it was. *)
Theorem C39_preserved : forall sha base d t d' p n, truns sha base d t d' -> mget d p = Some n ->
  (forall e o y, In (e, o) t -> p <> y :: hex_encode (sender e) :: base) -> mget d' p = Some n.
Proof. intros. eapply preserved; eauto. Qed.
Print Assumptions C39_preserved.

(** New files outside the spools are the completed ones. *)
Theorem C39_only_complete : forall sha base d t d' p b, truns sha base d t d' -> mget d p = None -> file_at d' p = Some b ->
  (forall e o y, In (e, o) t -> p <> y :: hex_encode (sender e) :: base) -> exists e, In (e, Complete p) t.
Proof.
  induction 1 as [|d e o d1 t d' St R IH]; intros G F H; [unfold file_at in F; rewrite G in F; discriminate|].
  destruct (frame _ _ _ _ _ _ p St) as [E|[E|[E|[(E & E' & _)|(E & ->)]]]].
  - destruct IH as [e' I]; [congruence|auto| |exists e'; now right]. intros e' o' y I. eapply H. right. eauto.
  - exfalso. eapply (H e o); [now left|exact E].
  - exfalso. eapply (H e o); [now left|exact E].
  - exfalso. assert (X : mget d' p = Some Dir).
    { eapply preserved; eauto. intros e' o' y I. eapply H. right. eauto. }
    unfold file_at in F. rewrite X in F. discriminate.
  - exists e. now left.
Qed.
Print Assumptions C39_only_complete.

(** As long as the announced names have no directories, completed files are in the
    spool directory itself, under the name that was announced or that name behind
    1s, and no message hangs the client. *)
Theorem C39_confined : forall sha base d t d', truns sha base d t d' -> tidy base d ->
  Forall (fun eo => wire_event (fst eo) /\ polite (fst eo)) t ->
  Forall (fun eo => snd eo <> Hangs /\ forall p, snd eo = Complete p -> exists k name, plain name /\ p = (repeat 49 k ++ name) :: base) t.
Proof.
  induction 1 as [|d e o d1 t d' St R IH]; intros T H; [constructor|].
  inversion H as [|? ? (W & P) H']; subst. cbn [fst] in W, P.
  pose proof (tidy_step _ _ _ _ _ _ T W P St) as T1. constructor; [|auto]. cbn [snd]. split.
  - intros ->. destruct e as [from cn f known|from c f known]; cbn [tstep] in St.
    + unfold handle_new in St. destruct f; try discriminate; repeat match type of St with context [create ?a ?b ?c] => destruct (create a b c) end;
        try discriminate; destruct known; discriminate.
    + apply chunk_cases in St as [(St & _)|(old & FO & SO & E)]; [discriminate|].
      destruct E as [(E & _)|E]; [discriminate|]. cbv zeta in E. destruct E as (b & cn & r & FD & Db & E).
      set (dm := mset d _ _) in *.
      assert (Pc : plain (ChunkNew_Filename cn)).
      { unfold dm in FD. rewrite file_at_mset in FD.
        destruct (eqb_spec (desc_of base from) (spool_of base from (Chunk_Digest c))) as [Q|_].
        - apply desc_spool in Q; [tauto|]. now destruct W as (_ & W & _).
        - eapply T; eauto. }
      destruct (free_place base dm (ChunkNew_Filename cn)) as [k Fr]; [apply Pc|].
      unfold finish in E. destruct (negb _); [destruct E; discriminate|]. destruct (negb _); [destruct E; discriminate|].
      assert (X : forall g, (if negb (eqb (sha (old ++ Chunk_Payload c)) (ChunkNew_Digest cn)) then Hangs = Refused /\ d1 = dm
         else (exists k, there dm (candidate base (ChunkNew_Filename cn) k) = false /\
                 (forall j, (j < k)%nat -> there dm (candidate base (ChunkNew_Filename cn) j) = true) /\
                 (Hangs, d1) = move base dm from (Chunk_Digest c) (old ++ Chunk_Payload c) (candidate base (ChunkNew_Filename cn) k) g) \/
              ((forall k, there dm (candidate base (ChunkNew_Filename cn) k) = true) /\ Hangs = Hangs /\ d1 = dm)) -> False).
      { intros g. destruct (negb _); [intros [Q _]; discriminate|].
        intros [(k' & _ & _ & Mv)|(A & _)]; [|rewrite A in Fr; discriminate].
        apply move_cases in Mv as [(Q & _)|(Q & _)]; discriminate. }
      destruct f; try (apply (X _ E)). destruct E; discriminate.
  - intros p ->. destruct (lands sha base d e p d1 T W St) as (k & name & -> & Pn). eauto.
Qed.
Print Assumptions C39_confined.

Lemma desc_in sha base from d t d1 : Forall is_byte from -> truns sha base d t d1 -> tidy base d ->
  Forall (fun eo => wire_event (fst eo) /\ polite (fst eo)) t ->
  file_at d1 (desc_of base from) = None \/ file_at d1 (desc_of base from) = file_at d (desc_of base from) \/
  exists cn g known o k, In (TNew from cn g known, o) t /\ ChunkNew_ok 0 cn /\
    file_at d1 (desc_of base from) = Some (firstn k (enc ChunkNew_codec cn)).
Proof.
  intros Bf. induction 1 as [|d e o dm t d1 St R IH]; auto. intros T H.
  inversion H as [|? ? (W & P) H']; subst. cbn [fst] in W, P.
  destruct (IH (tidy_step _ _ _ _ _ _ T W P St) H') as [E|[E|(cn & g & kn & o' & k & I & Ok & E)]]; auto.
  2: { right; right. exists cn, g, kn, o', k. split; [now right|auto]. }
  destruct (EqB_dec (sender e) from) as [Se|Ns].
  - destruct e as [x cn f known|x c f known]; cbn [sender tstep] in *; subst x.
    + destruct (new_descriptor sha _ _ _ _ _ _ _ _ St) as [Q|[k Q]]; [right; left; congruence|].
      right; right. exists cn, f, known, o, k. split; [now left|]. split; [apply W|]. congruence.
    + destruct (chunk_desc _ _ _ _ _ _ _ _ _ W T St) as [Q|Q]; [right; left|left]; congruence.
  - right; left. rewrite E. apply (desc_frame _ _ _ _ _ _ from T W St).
    intros Q. apply Ns. unfold desc_of, dir_of in Q. injection Q as Q. apply hex_inj in Q; auto. now destruct W.
Qed.

Lemma new_quiet base d from cn f known d' : Forall is_byte (ChunkNew_Digest cn) ->
  (Quiet, d') = handle_new base d from cn f known -> file_at d' (desc_of base from) = Some (enc ChunkNew_codec cn).
Proof.
  intros B. unfold handle_new.
  assert (Ne : eqb (desc_of base from) (spool_of base from (ChunkNew_Digest cn)) = false) by (apply eqb_neq; now apply desc_spool).
  intros E. destruct f; try discriminate;
  repeat match type of E with context [create ?a ?b ?c] =>
      let K := fresh "K" in destruct (create a b c) eqn:K; [apply create_gives in K as (-> & _ & _)|] end;
  try discriminate; apply pair_equal_spec in E as [_ ->]; now rewrite !file_at_mset, Ne, eqb_refl.
Qed.

Lemma desc_last sha base from d t d1 : Forall is_byte from -> truns sha base d t d1 -> forall a, tidy base d ->
  Forall (fun eo => wire_event (fst eo) /\ polite (fst eo)) t ->
  Forall (fun eo => match fst eo with TNew _ _ _ _ => snd eo = Quiet | TChunk _ _ _ _ => True end) (theirs from t) ->
  (forall b, file_at d (desc_of base from) = Some b -> exists cn, a = Some cn /\ ChunkNew_ok 0 cn /\ b = enc ChunkNew_codec cn) ->
  forall b, file_at d1 (desc_of base from) = Some b -> exists cn, ChunkNew_ok 0 cn /\ b = enc ChunkNew_codec cn /\
    fold_left (fun a eo => match fst eo with
                         | TNew x cn _ _ => if eqb x from then Some cn else a
                         | TChunk _ _ _ _ => a
                         end) t a = Some cn.
Proof.
  intros Bf. induction 1 as [|d e o dm t d1 St R IH]; intros a T H Tk J b F.
  { destruct (J b F) as (cn & -> & Ok & ->). exists cn. auto. }
  inversion H as [|? ? (W & P) H']; subst. cbn [fst] in W, P.
  unfold theirs in Tk. cbn [filter fst] in Tk. fold (theirs from t) in Tk. cbn [fold_left fst].
  pose proof (tidy_step _ _ _ _ _ _ T W P St) as T1.
  assert (Diff : sender e <> from -> file_at dm (desc_of base from) = file_at d (desc_of base from)).
  { intros Ns. apply (desc_frame _ _ _ _ _ _ from T W St).
    intros Q. apply Ns. unfold desc_of, dir_of in Q. injection Q as Q. apply hex_inj in Q; auto. now destruct W. }
  destruct e as [x cn f known|x c f known]; cbn [sender tstep] in *.
  - destruct (eqb_spec x from) as [->|Nx].
    + inversion Tk as [|? ? Q Tk']; subst. cbn in Q. subst o.
      apply (IH (Some cn)); auto. intros b' F'. rewrite (new_quiet _ _ _ _ _ _ _ (proj2 (proj2 W)) St) in F'. injection F' as <-.
      exists cn. repeat split; auto; apply W.
    + apply (IH a); auto. intros b' F'. apply J. now rewrite <- Diff.
  - apply (IH a); auto; [destruct (eqb x from); auto; now inversion Tk|].
    intros b' F'. apply J. destruct (eqb_spec x from) as [->|Nx]; [|now rewrite <- Diff].
    destruct (chunk_desc _ _ _ _ _ _ _ _ _ W T St) as [Q|Q]; congruence.
Qed.

(** ... and a completed file is one that its sender announced: the last one, if the
    announcements could be noted down. *)
Theorem C39_announced : forall sha base d t d1 from c f p d', tidy base d ->
  file_at d (bs "descriptor.xdr" :: hex_encode from :: base) = None ->
  truns sha base d t d1 -> Forall (fun eo => wire_event (fst eo) /\ polite (fst eo)) t ->
  wire_event (TChunk from c f true) ->
  tstep sha base d1 (TChunk from c f true) (Complete p) d' ->
  exists cn content k, (exists g known o, In (TNew from cn g known, o) t) /\
    N.of_nat (length content) = ChunkNew_Size cn /\ sha content = ChunkNew_Digest cn /\
    p = (repeat 49 k ++ ChunkNew_Filename cn) :: base /\ file_at d' p = Some content /\
    (Forall (fun eo => match fst eo with TNew _ _ _ _ => snd eo = Quiet | TChunk _ _ _ _ => True end) (theirs from t) ->
     announced from t = Some cn).
Proof.
  intros sha base d t d1 from c f p d' T N0 R H W St. destruct W as (Wf & Wd & Wo). cbn in Wf.
  apply complete_inv in St as (x & c' & f' & old & b & cn & r & k & E & FO & SO & FD & Db & SS & Sh & Ep & Th & _ & _ & G & _).
  injection E as <- <- <-. rewrite file_at_mset in FD.
  destruct (eqb_spec (desc_of base from) (spool_of base from (Chunk_Digest c))) as [Q|_]; [now apply desc_spool in Q|].
  change (bs "descriptor.xdr" :: hex_encode from :: base) with (desc_of base from) in N0.
  destruct (desc_in sha base from d t d1 Wf R T H) as [Q|[Q|(cn' & g & kn & o & k' & I & Ok & Q)]]; try congruence.
  rewrite FD in Q. injection Q as ->. pose proof (part_of _ _ _ _ Ok Db) as ->.
  assert (Pl : plain (ChunkNew_Filename cn')).
  { rewrite Forall_forall in H. now destruct (H _ I) as (_ & P). }
  exists cn', (old ++ Chunk_Payload c), k. split; [eauto|]. split; [apply same_size_spec in SS; [auto|apply Ok]|].
  split; auto. split; [now rewrite <- candidate_plain|]. split; [unfold file_at; now rewrite G|].
  intros Tk. destruct (desc_last sha base from d t d1 Wf R None T H Tk) with (b := firstn k' (enc ChunkNew_codec cn')) as (cn2 & Ok2 & Eb & An); auto.
  { intros b F. congruence. }
  unfold announced. rewrite An. f_equal. destruct good_ChunkNew as (Rt & _). specialize (Rt 0 cn2 [] Ok2).
  rewrite app_nil_r in Rt. change (dec ChunkNew_codec 0 (firstn k' (enc ChunkNew_codec cn')) = Some (cn', r)) in Db. rewrite Eb in Db. congruence.
Qed.
Print Assumptions C39_announced.

(** ** What does not hold *)

(** What an announcement and its only chunk do when nothing is in the way. *)
Lemma one_chunk sha base d from name descr mime file k :
  way_clear base d from -> Forall is_byte (sha file) -> N.of_nat (length file) < 2 ^ 63 ->
  let cn := mkChunkNew (N.of_nat (length file)) (N.of_nat (length file)) name descr mime (sha file) in
  ChunkNew_ok 0 cn ->
  let p := candidate base name k in
  (forall j, (j < k)%nat -> there d (candidate base name j) = true) ->
  there d p = false -> is_dir d (tl p) = true ->
  (forall y, p <> y :: hex_encode from :: base) -> p <> hex_encode from :: base -> (forall l, base <> l ++ p) ->
  exists d1 d2, tstep sha base d (TNew from cn Works true) Quiet d1 /\
    tstep sha base d1 (TChunk from (mkChunk 0 (sha file) file) Works true) (Complete p) d2 /\ file_at d2 p = Some file.
Proof.
  intros Wc Bs Lt cn Ok p Early Np Dp N1 N2 N3.
  destruct (new_works sha base d from cn Wc Bs) as (d1 & Hn & B & D & C & FD & FS & Fr).
  set (dm := mset d1 (spool_of base from (sha file)) (File file)).
  assert (St0 : tstep sha base d (TNew from cn Works true) Quiet d1) by (cbn [tstep]; now symmetry).
  apply there_false in Np as (P0 & Np).
  assert (G1 : mget d1 p = None).
  { destruct (Fr p) as [E|[E|[l E]]]; auto; try (apply N1); try (apply (proj1 Wc)).
    - exfalso. apply (N3 []). cbn. congruence.
    - exfalso. now apply (N3 l). }
  assert (Keep : forall q, there d q = true -> there dm q = true).
  { intros q Hq. unfold there in *. destruct q as [|x q]; auto. destruct (mget d (x :: q)) as [n|] eqn:G; [|discriminate].
    assert (H1 : mget d1 (x :: q) <> None).
    { destruct (frame _ _ _ _ _ _ (x :: q) St0) as [E|[E|[E|[(E & _)|(E & _)]]]]; try congruence; cbn [sender digest_of] in E; rewrite E.
      - apply file_at_Some in FD. rewrite FD. discriminate.
      - apply file_at_Some in FS. cbn [ChunkNew_Digest cn] in FS. unfold cn; cbn [ChunkNew_Digest]. rewrite FS. discriminate. }
    unfold dm. rewrite mget_mset. destruct (eqb _ _); auto. destruct (mget d1 (x :: q)); [auto|congruence]. }
  assert (Gm : there dm p = false).
  { unfold there. destruct p as [|x q] eqn:Q; [congruence|]. unfold dm. rewrite mget_mset_ne by apply N1. now rewrite G1. }
  assert (Dm : is_dir dm (tl p) = true).
  { apply (is_dir_keeps d1).
    - intros n H. unfold dm. destruct (EqB_dec (tl p) (spool_of base from (sha file))) as [E|E]; [|now rewrite mget_mset_ne].
      exfalso. destruct Wc as (_ & _ & W3). rewrite E in Dp. unfold spool_of, dir_of in Dp. rewrite W3 in Dp. discriminate.
    - eapply dir_stays; [exact St0|exact Dp| |]; intros E; destruct Wc as (_ & _ & W3); rewrite E in Dp; cbn [sender digest_of] in Dp;
      unfold spool_of, desc_of, dir_of in Dp; rewrite W3 in Dp; discriminate. }
  set (d2 := mdel (mset (mdel dm (spool_of base from (sha file))) p (File file)) (desc_of base from)).
  exists d1, d2. split; [exact St0|]. split.
  - cbn [tstep]. unfold handle_chunk. cbn [Chunk_Digest Chunk_Offset Chunk_Payload].
    unfold cn in FS. cbn [ChunkNew_Digest] in FS. rewrite FS. change (same_size (length (@nil N)) 0) with true. cbn [negb app]. cbv zeta. fold dm.
    assert (FDm : file_at dm (desc_of base from) = Some (enc ChunkNew_codec cn)).
    { unfold dm. rewrite file_at_mset. destruct (eqb_spec (desc_of base from) (spool_of base from (sha file))) as [E|_]; auto.
      now apply desc_spool in E. }
    rewrite FDm. destruct good_ChunkNew as (Rt & _). pose proof (Rt 0 cn [] Ok) as Dc. rewrite app_nil_r in Dc. rewrite Dc.
    unfold finish. unfold cn at 1. cbn [ChunkNew_Size]. rewrite same_size_refl by exact Lt. cbn [negb].
    unfold cn at 1. cbn [ChunkNew_Digest]. rewrite eqb_refl. cbn [negb]. left. exists k. unfold cn. cbn [ChunkNew_Filename]. fold p.
    split; [exact Gm|]. split; [intros j L; apply Keep; auto|]. unfold move. now rewrite Dm.
  - unfold d2. rewrite file_at_mdel, file_at_mset, eqb_refl. destruct (eqb_spec p (desc_of base from)) as [E|_]; auto.
    exfalso. now apply (N1 _ E).
Qed.

(** The announced name is not looked at: a contact can have a file of theirs
    written to any place on the disk where there is nothing yet and that the client
    may write to.  (A path is its components, innermost first.) *)
Definition way_to (base : path) (target : path) : bytes :=
  concat (map (fun c => c ++ [47]) (repeat [46; 46] (length base) ++ rev target)).

Lemma split_concat l : Forall (fun c => ~ In 47 c) l -> split_slash [] (concat (map (fun c => c ++ [47]) l)) = l ++ [[]].
Proof.
  induction 1 as [|c l Hc Hl IH]; auto. cbn [map concat]. rewrite <- app_assoc. cbn [app].
  rewrite split_seg by auto. cbn [rev app]. now rewrite IH.
Qed.

Lemma way_to_joins base target : Forall plain target -> join base (way_to base target) = target.
Proof.
  intros P. unfold join, way_to. rewrite split_concat.
  - rewrite fold_left_app. cbn [fold_left]. change (walk ?x []) with x. rewrite fold_left_app.
    assert (U : forall b : path, fold_left walk (repeat [46; 46] (length b)) b = []).
    { induction b as [|x b IH]; auto. }
    rewrite U.
    assert (V : forall l acc, Forall plain l -> fold_left walk l acc = rev l ++ acc).
    { induction l as [|c l IH]; intros acc Hl; auto. inversion Hl as [|? ? (_ & A & B & C) Hl']; subst.
      cbn [fold_left rev]. rewrite walk_plain by auto. rewrite IH by auto. now rewrite <- app_assoc. }
    rewrite V by now apply Forall_rev. now rewrite rev_involutive, app_nil_r.
  - apply Forall_app. split.
    + apply Forall_forall. intros c I. apply repeat_spec in I as ->. intros [E|[E|[]]]; discriminate.
    + apply Forall_rev. eapply Forall_impl; [|exact P]. now intros a (A & _).
Qed.

Theorem C39_anywhere_refuted : forall sha base d from descr mime file target,
  way_clear base d from -> Forall is_byte (sha file) -> N.of_nat (length file) < 2 ^ 63 ->
  Forall plain target -> there d target = false -> is_dir d (tl target) = true ->
  (forall y, target <> y :: hex_encode from :: base) -> target <> hex_encode from :: base -> (forall l, base <> l ++ target) ->
  let cn := mkChunkNew (N.of_nat (length file)) (N.of_nat (length file)) (way_to base target) descr mime (sha file) in
  ChunkNew_ok 0 cn ->
  exists d1 d2, tstep sha base d (TNew from cn Works true) Quiet d1 /\
    tstep sha base d1 (TChunk from (mkChunk 0 (sha file) file) Works true) (Complete target) d2 /\
    file_at d2 target = Some file.
Proof.
  intros sha base d from descr mime file target Wc Bs Lt P Nt Dt N1 N2 N3 cn Ok.
  pose proof (one_chunk sha base d from (way_to base target) descr mime file 0 Wc Bs Lt Ok) as H. cbv zeta in H.
  assert (E : candidate base (way_to base target) 0 = target) by (unfold candidate; cbn [repeat app]; now apply way_to_joins).
  rewrite E in H. apply H; auto. intros j L. lia.
Qed.
Print Assumptions C39_anywhere_refuted.

(** A name such as a/.. has the client look for a free name for ever. *)
Theorem C39_hang_refuted : forall sha base d from c f old b cn r s, f = Works \/ f = NoRename \/ f = NoRemove ->
  is_dir d base = true -> ~ In 47 s -> s <> [] -> s <> [46] -> s <> [46; 46] -> ChunkNew_Filename cn = s ++ [47; 46; 46] ->
  file_at d (hex_encode (Chunk_Digest c) :: hex_encode from :: base) = Some old ->
  same_size (length old) (Chunk_Offset c) = true ->
  file_at d (bs "descriptor.xdr" :: hex_encode from :: base) = Some b -> dec ChunkNew_codec 0 b = Some (cn, r) ->
  Forall is_byte (Chunk_Digest c) ->
  same_size (length (old ++ Chunk_Payload c)) (ChunkNew_Size cn) = true -> sha (old ++ Chunk_Payload c) = ChunkNew_Digest cn ->
  (exists d', tstep sha base d (TChunk from c f true) Hangs d') /\
  forall o d', tstep sha base d (TChunk from c f true) o d' -> o = Hangs.
Proof.
  intros sha base d from c f old b cn r s Hf B S0 S1 S2 S3 Fn FO SO FD Db Bd SS Sh.
  assert (Can : forall k, candidate base (ChunkNew_Filename cn) k = base).
  { intros k. rewrite Fn. unfold candidate, join. rewrite app_assoc. change [47; 46; 46] with (47 :: [46; 46]).
    rewrite split_seg by now apply ones_plain. cbn [rev app].
    change (split_slash [] [46; 46]) with [[46; 46]]. cbn [fold_left].
    rewrite (walk_plain base (repeat 49 k ++ s)); [reflexivity| | |]; destruct k; cbn [repeat app]; try discriminate; auto. }
  set (dm := mset d (spool_of base from (Chunk_Digest c)) (File (old ++ Chunk_Payload c))).
  assert (Th : forall k, there dm (candidate base (ChunkNew_Filename cn) k) = true).
  { intros k. rewrite Can. apply is_dir_there. apply (is_dir_keeps d); auto. intros n. unfold dm. rewrite mget_mset_ne; auto.
    intros E. symmetry in E. now apply tail_ne in E. }
  assert (FDm : file_at dm (desc_of base from) = Some b).
  { unfold dm. rewrite file_at_mset. destruct (eqb_spec (desc_of base from) (spool_of base from (Chunk_Digest c))) as [E|_]; auto.
    now apply desc_spool in E. }
  assert (Eq : forall o d', tstep sha base d (TChunk from c f true) o d' <->
     ((exists k, there dm (candidate base (ChunkNew_Filename cn) k) = false /\
                      (forall j, (j < k)%nat -> there dm (candidate base (ChunkNew_Filename cn) j) = true) /\
                      (o, d') = move base dm from (Chunk_Digest c) (old ++ Chunk_Payload c) (candidate base (ChunkNew_Filename cn) k) f)
                  \/ ((forall k, there dm (candidate base (ChunkNew_Filename cn) k) = true) /\ o = Hangs /\ d' = dm))).
  { intros o d'. cbn [tstep]. unfold handle_chunk. change (hex_encode (Chunk_Digest c) :: hex_encode from :: base) with (spool_of base from (Chunk_Digest c)) in FO.
    rewrite FO, SO. cbn [negb]. cbv zeta. fold dm. rewrite FDm, Db. unfold finish. rewrite SS, Sh, eqb_refl. cbn [negb].
    destruct Hf as [->|[->| ->]]; reflexivity. }
  split.
  - exists dm. apply Eq. right. auto.
  - intros o d' St. apply Eq in St as [(k & T & _)|(_ & -> & _)]; auto. rewrite Th in T. discriminate.
Qed.
Print Assumptions C39_hang_refuted.

(** A contact may, with an ordinary name, keep every file of another contact from
    arriving: the name is that contact's identity, in hexadecimal. *)
Lemma blocked sha base x d t d' : truns sha base d t d' -> Forall is_byte x -> Forall (fun eo => Forall is_byte (sender (fst eo))) t ->
  (exists b, file_at d (hex_encode x :: base) = Some b) -> (forall y, mget d (y :: hex_encode x :: base) = None) ->
  Forall (fun eo => snd eo = Refused) (theirs x t).
Proof.
  induction 1 as [|d e o d1 t d' St R IH]; intros Bx Bt (b & F) Nb; [constructor|].
  inversion Bt as [|? ? Be Bt']; subst. cbn [fst] in Be.
  assert (Nd : is_dir d (hex_encode x :: base) = false).
  { unfold is_dir. apply file_at_Some in F. now rewrite F. }
  assert (F1 : file_at d1 (hex_encode x :: base) = Some b) by (eapply file_stays; eauto).
  assert (Own : sender e = x -> o = Refused /\ forall y, mget d1 (y :: hex_encode x :: base) = None).
  { intros Se. destruct e as [z cn f known|z c f known]; cbn [sender tstep] in *; subst z.
    - unfold handle_new in St.
      assert (Mk : is_dir (mkdir_all d (dir_of base x)) (dir_of base x) = false).
      { unfold is_dir. destruct (dir_of base x) eqn:E; [discriminate|]. rewrite <- E. apply file_at_Some in F.
        change (hex_encode x :: base) with (dir_of base x) in F. now rewrite (mkdir_all_keeps d (dir_of base x) _ _ F). }
      assert (Cr : forall y bb, create (mkdir_all d (dir_of base x)) (y :: dir_of base x) bb = None).
      { intros y bb. unfold create. cbn [tl]. now rewrite Mk. }
      assert (Me : forall y, mget (mkdir_all d (dir_of base x)) (y :: dir_of base x) = None).
      { intros y. destruct (mkdir_all_spec d (dir_of base x) (y :: dir_of base x)) as [->|(_ & _ & _ & l & E)]; [apply Nb|].
        apply (f_equal (@length _)) in E. rewrite app_length in E. cbn in E. lia. }
      unfold desc_of in St. destruct f; rewrite ?Cr in St; apply pair_equal_spec in St as [-> ->]; auto.
    - apply chunk_cases in St as [(-> & ->)|(old & FO & _)]; auto.
      unfold file_at, spool_of, dir_of in FO. rewrite Nb in FO. discriminate. }
  unfold theirs. cbn [filter fst]. fold (theirs x t).
  assert (Nb1 : forall y, mget d1 (y :: hex_encode x :: base) = None).
  { destruct (EqB_dec (sender e) x) as [Se|Ns]; [now apply Own|]. intros y.
    assert (Nh : hex_encode x <> hex_encode (sender e)) by (intros E; apply hex_inj in E; auto).
    destruct (frame _ _ _ _ _ _ (y :: hex_encode x :: base) St) as [E|[E|[E|[(_ & _ & l & E)|(_ & ->)]]]].
    - rewrite E. apply Nb.
    - unfold desc_of, dir_of in E. congruence.
    - unfold spool_of, dir_of in E. congruence.
    - apply (f_equal (@length _)) in E. rewrite app_length in E. cbn in E. lia.
    - apply complete_inv in St as (? & ? & ? & ? & ? & ? & ? & ? & _ & _ & _ & _ & _ & _ & _ & _ & _ & _ & Dt & _). cbn [tl] in Dt. congruence. }
  destruct (eqb_spec (sender e) x) as [Se|Ns]; [constructor; [now apply Own|]|]; apply IH; eauto.
Qed.

Lemma hex_plain x : Forall is_byte x -> x <> [] -> plain (hex_encode x).
Proof.
  intros B Nx.
  assert (H : forall c, In c (hex_encode x) -> c <> 47 /\ c <> 46).
  { intros c I. unfold hex_encode in I. clear Nx. induction B as [|b x Hb B IH]; [destruct I|].
    cbn [flat_map] in I. apply in_app_or in I as [I|I]; auto.
    assert (D : forall n, n < 16 -> hex_digit n <> 47 /\ hex_digit n <> 46).
    { clear. intros n L. unfold hex_digit. destruct (n <? 10) eqn:E; [apply N.ltb_lt in E|apply N.ltb_ge in E]; lia. }
    unfold is_byte in Hb. assert (b / 16 < 16) by (apply N.div_lt_upper_bound; lia). assert (b mod 16 < 16) by (apply N.mod_lt; lia).
    destruct I as [<-|[<-|[]]]; auto. }
  split; [intros I; apply H in I; tauto|]. split; [|split].
  - destruct x; [congruence|]. discriminate.
  - intros E. destruct (H 46); [rewrite E; now left|]. congruence.
  - intros E. destruct (H 46); [rewrite E; now left|]. congruence.
Qed.

Theorem C38_blocked_refuted : forall sha base d a b descr mime file,
  way_clear base d a -> Forall is_byte (sha file) -> N.of_nat (length file) < 2 ^ 63 ->
  Forall is_byte a -> Forall is_byte b -> a <> b -> b <> [] ->
  there d (hex_encode b :: base) = false -> (forall y, mget d (y :: hex_encode b :: base) = None) ->
  let cn := mkChunkNew (N.of_nat (length file)) (N.of_nat (length file)) (hex_encode b) descr mime (sha file) in
  ChunkNew_ok 0 cn -> plain (ChunkNew_Filename cn) /\
  exists d2, truns sha base d [(TNew a cn Works true, Quiet);
                               (TChunk a (mkChunk 0 (sha file) file) Works true, Complete (hex_encode b :: base))] d2 /\
    forall t d', truns sha base d2 t d' -> Forall (fun eo => Forall is_byte (sender (fst eo))) t ->
      Forall (fun eo => snd eo = Refused) (theirs b t).
Proof.
  intros sha base d a b descr mime file Wc Bs Lt Ba Bb Nab Nb0 Nt Nb cn Ok.
  assert (Pl : plain (hex_encode b)) by now apply hex_plain.
  split; [exact Pl|].
  assert (Nh : hex_encode a <> hex_encode b) by (intros E; apply hex_inj in E; auto).
  pose proof (one_chunk sha base d a (hex_encode b) descr mime file 0 Wc Bs Lt Ok) as H. cbv zeta in H.
  assert (E : candidate base (hex_encode b) 0 = hex_encode b :: base) by (rewrite candidate_plain by auto; reflexivity).
  rewrite E in H. destruct H as (d1 & d2 & S1 & S2 & F2); auto.
  - intros j L. lia.
  - apply (proj1 Wc).
  - intros y Q. symmetry in Q. now apply tail_ne1 in Q.
  - congruence.
  - intros l Q. apply (f_equal (@length _)) in Q. rewrite app_length in Q. cbn in Q. lia.
  - exists d2. split; [econstructor; [exact S1|econstructor; [exact S2|constructor]]|].
    intros t d' R Bt. eapply blocked; eauto.
    (* nothing is below *)
    assert (Step : forall d e o d', tstep sha base d e o d' -> sender e = a -> (forall y, mget d (y :: hex_encode b :: base) = None) ->
       (forall p, o = Complete p -> tl p = base) -> forall y, mget d' (y :: hex_encode b :: base) = None).
    { intros dd e o dd' St Se Nn Co y. destruct (frame _ _ _ _ _ _ (y :: hex_encode b :: base) St) as [Q|[Q|[Q|[(_ & _ & l & Q)|(_ & Q)]]]].
      - rewrite Q. apply Nn.
      - unfold desc_of, dir_of in Q. congruence.
      - unfold spool_of, dir_of in Q. congruence.
      - apply (f_equal (@length _)) in Q. rewrite app_length in Q. cbn in Q. lia.
      - apply Co in Q. cbn [tl] in Q. exfalso. apply (f_equal (@length _)) in Q. cbn in Q. lia. }
    eapply (Step d1); [exact S2|reflexivity| |intros p Q; injection Q as <-; reflexivity].
    eapply (Step d); [exact S1|reflexivity|exact Nb|discriminate].
Qed.
Print Assumptions C38_blocked_refuted.

(** Of two files of one sender that are under way at once, the one announced first
    is lost if the other is larger: all of it arrives, without an error, and it is
    never reported. *)
Theorem C38_overlap_refuted : forall sha base size file l d from cn1 cn2 t d',
  reads size file l -> N.of_nat (length file) < 2 ^ 63 -> N.of_nat (length file) < ChunkNew_Size cn2 -> ChunkNew_ok 0 cn1 -> ChunkNew_ok 0 cn2 ->
  Forall is_byte (ChunkNew_Digest cn1) -> Forall is_byte (ChunkNew_Digest cn2) -> way_clear base d from ->
  truns sha base d t d' ->
  map fst t = TNew from cn1 Works true :: TNew from cn2 Works true :: map (fun c => TChunk from c Works true) (chunks (ChunkNew_Digest cn1) 0 l) ->
  Forall (fun eo => snd eo = Quiet) t /\ file_at d' (hex_encode (ChunkNew_Digest cn1) :: hex_encode from :: base) = Some file.
Proof.
  intros sha base size file l d from cn1 cn2 t d' Re Lt Lg Ok1 Ok2 B1 B2 Wc R Ev.
  apply reads_spec in Re as [Cat Nb].
  destruct t as [|[e1 o1] [|[e2 o2] t]]; try discriminate. cbn [map fst] in Ev. injection Ev as -> -> Ev.
  inversion R as [|? ? ? d1 ? ? S1 R1]; subst d0 e o t0 d'0. inversion R1 as [|? ? ? d2 ? ? S2 R2]; subst d0 e o t0 d'0. cbn [tstep] in S1, S2.
  destruct (new_works sha base d from cn1 Wc B1) as (x1 & H1 & Bb & D1 & C1 & FD1 & FS1 & _).
  rewrite H1 in S1. apply pair_equal_spec in S1 as [-> ->].
  assert (Wc1 : way_clear base x1 from).
  { split; auto. split; [|auto]. unfold file_at. unfold is_dir, dir_of in D1. destruct (mget x1 (hex_encode from :: base)) as [[]|]; auto; discriminate. }
  destruct (new_works sha base x1 from cn2 Wc1 B2) as (x2 & H2 & Bb2 & D2 & C2 & FD2 & FS2 & _).
  assert (FS12 : file_at x2 (spool_of base from (ChunkNew_Digest cn1)) = Some []).
  { destruct (EqB_dec (spool_of base from (ChunkNew_Digest cn1)) (spool_of base from (ChunkNew_Digest cn2))) as [->|Nq]; auto.
    apply file_at_Some in FS1. assert (St : tstep sha base x1 (TNew from cn2 Works true) Quiet x2) by (cbn [tstep]; now symmetry).
    unfold file_at. rewrite (stays _ _ _ _ _ _ _ _ St FS1); auto. cbn [sender]. intros Q. symmetry in Q. now apply desc_spool in Q. }
  rewrite H2 in S2. apply pair_equal_spec in S2 as [-> ->].
  assert (J : forall done rest dk t, done ++ concat rest = file -> truns sha base dk t d' ->
     file_at dk (desc_of base from) = Some (enc ChunkNew_codec cn2) -> file_at dk (spool_of base from (ChunkNew_Digest cn1)) = Some done ->
     map fst t = map (fun c => TChunk from c Works true) (chunks (ChunkNew_Digest cn1) (N.of_nat (length done)) rest) ->
     Forall (fun eo => snd eo = Quiet) t /\ file_at d' (spool_of base from (ChunkNew_Digest cn1)) = Some file).
  { clear - Lt Lg Ok2 B1. intros done rest. revert done. induction rest as [|b rest IH]; intros done dk t Cat R FD FS Ev.
    - destruct t as [|[e o] t]; [|discriminate]. inversion R; subst. cbn [concat]. rewrite app_nil_r. auto.
    - rewrite chunks_cons in Ev. destruct t as [|[e o] t]; [discriminate|]. cbn [map fst] in Ev. injection Ev as -> Ev.
      inversion R as [|? ? ? d1 ? ? S1 R1]; subst. cbn [tstep] in S1. unfold handle_chunk in S1.
      cbn [Chunk_Digest Chunk_Offset Chunk_Payload] in S1. cbn [concat] in *.
      rewrite FS, same_size_refl in S1 by (rewrite !app_length in Lt; lia). cbn [negb] in S1. cbv zeta in S1.
      set (dm := mset dk (spool_of base from (ChunkNew_Digest cn1)) (File (done ++ b))) in *.
      assert (FDm : file_at dm (desc_of base from) = Some (enc ChunkNew_codec cn2)).
      { unfold dm. rewrite file_at_mset. destruct (eqb_spec (desc_of base from) (spool_of base from (ChunkNew_Digest cn1))) as [E|_]; auto.
        now apply desc_spool in E. }
      rewrite FDm in S1. destruct good_ChunkNew as (Rt & _). pose proof (Rt 0 cn2 [] Ok2) as Dc. rewrite app_nil_r in Dc. rewrite Dc in S1.
      unfold finish in S1. replace (same_size (length (done ++ b)) (ChunkNew_Size cn2)) with false in S1.
      2: { symmetry. destruct (same_size _ _) eqn:E; auto. apply same_size_spec in E; [|apply Ok2]. rewrite E in Lg.
           rewrite !app_length in Lg. lia. }
      cbn [negb] in S1. destruct S1 as [-> ->].
      destruct (IH (done ++ b) dm t) as [A B]; auto.
      + now rewrite <- app_assoc.
      + unfold dm. now rewrite file_at_mset, eqb_refl.
      + now rewrite app_length, Nat2N.inj_add. }
  destruct (J [] l x2 t) as [A B]; auto.
Qed.
Print Assumptions C38_overlap_refuted.

(** ** Every sequence of polite messages is handled *)

Lemma polite_total sha base d e : tidy base d -> wire_event e -> exists o d', tstep sha base d e o d'.
Proof.
  intros T W. destruct e as [from cn f known|from c f known]; cbn [tstep].
  { destruct (handle_new base d from cn f known) as [o d'] eqn:E. exists o, d'. auto. }
  unfold handle_chunk. set (S0 := spool_of base from (Chunk_Digest c)).
  destruct (file_at d S0) as [old|] eqn:FO; [|destruct f; eauto].
  destruct (negb _); [destruct f; eauto|]. cbv zeta. set (dm := mset d S0 _).
  assert (Fin : forall g b, file_at dm (desc_of base from) = Some b -> exists o d',
    match dec ChunkNew_codec 0 b with
    | None => o = Refused /\ d' = dm
    | Some (cn, _) => finish sha base dm from (Chunk_Digest c) (old ++ Chunk_Payload c) cn g known o d'
    end).
  { intros g b FD. destruct (dec ChunkNew_codec 0 b) as [[cn r]|] eqn:Db; [|eauto].
    unfold finish. destruct (negb _); [eauto|]. destruct (negb known); [eauto|].
    assert (Pc : plain (ChunkNew_Filename cn)).
    { unfold dm in FD. rewrite file_at_mset in FD.
      destruct (eqb_spec (desc_of base from) S0) as [Q|_].
      - apply desc_spool in Q; [tauto|]. now destruct W as (_ & W & _).
      - eapply T; eauto. }
    destruct (least (fun k => there dm (candidate base (ChunkNew_Filename cn) k))) as (k & Fr & Early); [apply free_place, Pc|].
    destruct (move base dm from (Chunk_Digest c) (old ++ Chunk_Payload c) (candidate base (ChunkNew_Filename cn) k) g) as [o d'] eqn:Mv.
    destruct g; try (destruct (negb _); [eauto|]; exists o, d'; left; exists k; rewrite Mv; auto; fail). eauto. }
  destruct (file_at dm (desc_of base from)) as [b|] eqn:FD; [|destruct f; eauto].
  destruct f; eauto; apply (Fin _ b eq_refl).
Qed.

Theorem C38_handled : forall sha base es d, tidy base d -> Forall (fun e => wire_event e /\ polite e) es ->
  exists t d', map fst t = es /\ truns sha base d t d'.
Proof.
  intros sha base es. induction es as [|e es IH]; intros d T H.
  - exists [], d. split; auto. constructor.
  - inversion H as [|? ? (W & P) H']; subst. destruct (polite_total sha base d e T W) as (o & d1 & St).
    destruct (IH d1) as (t & d' & E & R); auto; [eapply tidy_step; eauto|].
    exists ((e, o) :: t), d'. cbn [map fst]. rewrite E. split; auto. econstructor; eauto.
Qed.
Print Assumptions C38_handled.

(** ** A case: a file in three chunks, between the chunks of another sender's; the
    name is taken. *)
Definition toy_sha (b : bytes) : bytes := firstn 32 (b ++ repeat 7 32).
Definition toy_base : path := [bs "spool"; bs "zkc"].
Definition toy_disk : disk := [([bs "zkc"], Dir); (toy_base, Dir); (bs "a.txt" :: toy_base, File (bs "mine"))].
Definition alice := repeat 1 32.
Definition bob := repeat 2 32.

Definition hello_news := mkChunkNew 5 2 (bs "a.txt") (bs "for you") (bs "text/plain") (toy_sha (bs "hello")).
Definition hello_chunks := [mkChunk 0 (toy_sha (bs "hello")) (bs "he"); mkChunk 2 (toy_sha (bs "hello")) (bs "ll"); mkChunk 4 (toy_sha (bs "hello")) (bs "o")].
Definition both_senders : list tevent :=
  [TChunk alice (mkChunk 0 (toy_sha (bs "hello")) (bs "he")) Works true;
   TNew bob (mkChunkNew 3 2 (bs "a.txt") [] [] (toy_sha (bs "abc"))) Works true;
   TChunk alice (mkChunk 2 (toy_sha (bs "hello")) (bs "ll")) Works true;
   TChunk bob (mkChunk 0 (toy_sha (bs "abc")) (bs "ab")) (PartSpool 1) true;
   TChunk alice (mkChunk 4 (toy_sha (bs "hello")) (bs "o")) Works true].
Ltac chunk_new_ok := repeat split; try (vm_compute; reflexivity); try (vm_compute; discriminate); left; reflexivity.
Ltac all_bytes := repeat constructor.
Ltac look E := repeat match type of E with context [eqb ?a ?b] =>
  destruct (eqb_spec a b) as [?Q|_]; [match goal with Q : _ = _ |- _ => apply (f_equal (@length _)) in Q; discriminate end|] end.

Lemma toy_way (d : disk) x : d = toy_disk \/ d = ([bs ".ssh"], Dir) :: toy_disk -> length (hex_encode x) = 64%nat -> way_clear toy_base d x.
Proof.
  intros Hd L. split; [destruct Hd as [->| ->]; reflexivity|]. split.
  - unfold file_at. destruct (mget d (hex_encode x :: toy_base)) as [n|] eqn:E; auto. exfalso.
    destruct Hd as [->| ->]; cbn [toy_disk mget] in E;
    repeat match type of E with context [eqb ?a ?b] => destruct (eqb_spec a b) as [Q|_];
      [try (apply (f_equal (@length _)) in Q; discriminate); injection Q as Q; rewrite Q in L; discriminate|] end; discriminate.
  - intros y. unfold is_dir. destruct (mget d (y :: hex_encode x :: toy_base)) as [n|] eqn:E; auto. exfalso.
    destruct Hd as [->| ->]; cbn [toy_disk mget] in E; look E; discriminate.
Qed.
Lemma toy_tidy : tidy toy_base toy_disk.
Proof.
  intros x b cn r F. exfalso. unfold file_at in F. cbn [toy_disk mget] in F. look F. discriminate.
Qed.

Example C38_case :
  send toy_sha 2 100 (bs "a.txt") (bs "for you") (bs "text/plain") (bs "hello") [bs "he"; bs "ll"; bs "o"] = Some (hello_news, hello_chunks) /\
  exists o t d' k, truns toy_sha toy_base toy_disk ((TNew alice hello_news Works true, o) :: t) d' /\
    map fst t = both_senders /\
    map snd (theirs alice t) = [Quiet; Quiet; Complete ((repeat 49 (S k) ++ bs "a.txt") :: toy_base)] /\
    file_at d' ((repeat 49 (S k) ++ bs "a.txt") :: toy_base) = Some (bs "hello") /\
    file_at d' (bs "a.txt" :: toy_base) = Some (bs "mine").
Proof.
  split; [reflexivity|].
  assert (W : Forall (fun e => wire_event e /\ polite e) (TNew alice hello_news Works true :: both_senders)).
  { repeat (apply Forall_cons; [split; [split; [all_bytes|cbn; split; [try chunk_new_ok; all_bytes|try all_bytes; reflexivity]]|
      cbn; try exact I; repeat split; try discriminate; cbn; intros E; repeat destruct E as [E|E]; try discriminate; auto]|]). constructor. }
  destruct (C38_handled toy_sha toy_base (TNew alice hello_news Works true :: both_senders) toy_disk toy_tidy W) as (t0 & d' & E & R).
  destruct t0 as [|[e o] t]; [discriminate|]. cbn [map fst] in E. injection E as -> E.
  destruct (C38_arrives toy_sha toy_base 2 100 (bs "a.txt") (bs "for you") (bs "text/plain") (bs "hello") [bs "he"; bs "ll"; bs "o"]
    hello_news hello_chunks toy_disk alice o t d') as (k & p & -> & Out & Ep & F & Np & _).
  - reflexivity.
  - change (bs "hello") with (bs "he" ++ bs "ll" ++ bs "o" ++ []). repeat (apply Reads_more; [discriminate|vm_compute; discriminate|]). constructor.
  - repeat split; try discriminate; cbn; intros Q; repeat destruct Q as [Q|Q]; try discriminate; auto.
  - chunk_new_ok.
  - all_bytes.
  - all_bytes.
  - reflexivity.
  - apply toy_way; auto.
  - exact toy_tidy.
  - exact R.
  - assert (G : forall l, map fst (theirs alice l) = filter (fun e => eqb (sender e) alice) (map fst l)).
    { induction l as [|[e o'] l IH]; auto. unfold theirs. cbn [filter fst map]. destruct (eqb (sender e) alice); cbn [map fst]; now rewrite <- IH. }
    rewrite G, E. reflexivity.
  - apply Forall_forall. intros [e o'] I. apply (in_map fst) in I. rewrite E in I. rewrite Forall_forall in W. apply (W e). now right.
  - exists Quiet, t, d'. destruct k as [|k]; [subst p; vm_compute in Np; discriminate|]. exists k. subst p.
    split; auto. split; auto. split; auto. split; auto. eapply landed_stays; [exact R|reflexivity].
Qed.

(** The hypotheses of the refutations are met: a key is put where ssh looks for it;
    bob is shut out by alice; alice's announcement of a/.. hangs the client. *)
Definition toy_disk2 : disk := ([bs ".ssh"], Dir) :: toy_disk.

Example C39_anywhere_case : exists d1 d2,
  way_to toy_base [bs "authorized_keys"; bs ".ssh"] = bs "../../.ssh/authorized_keys/" /\
  tstep toy_sha toy_base toy_disk2 (TNew alice (mkChunkNew 3 3 (bs "../../.ssh/authorized_keys/") [] [] (toy_sha (bs "key"))) Works true) Quiet d1 /\
  tstep toy_sha toy_base d1 (TChunk alice (mkChunk 0 (toy_sha (bs "key")) (bs "key")) Works true) (Complete [bs "authorized_keys"; bs ".ssh"]) d2 /\
  file_at d2 [bs "authorized_keys"; bs ".ssh"] = Some (bs "key").
Proof.
  destruct (C39_anywhere_refuted toy_sha toy_base toy_disk2 alice [] [] (bs "key") [bs "authorized_keys"; bs ".ssh"]) as (d1 & d2 & A & B & C).
  - apply toy_way; auto.
  - all_bytes.
  - reflexivity.
  - repeat constructor; try discriminate; cbn; intros E; repeat destruct E as [E|E]; try discriminate; auto.
  - reflexivity.
  - reflexivity.
  - discriminate.
  - discriminate.
  - intros [|x [|y [|z l]]]; discriminate.
  - chunk_new_ok.
  - exists d1, d2. split; [reflexivity|]. auto.
Qed.

Definition trap := mkChunkNew 3 3 (bs "a/..") [] [] (toy_sha (bs "key")).
Definition toy_disk3 : disk :=
  toy_disk ++ [(hex_encode alice :: toy_base, Dir); (bs "descriptor.xdr" :: hex_encode alice :: toy_base, File (enc ChunkNew_codec trap));
               (hex_encode (toy_sha (bs "key")) :: hex_encode alice :: toy_base, File [])].
Example C39_hang_case : exists d', tstep toy_sha toy_base toy_disk3 (TChunk alice (mkChunk 0 (toy_sha (bs "key")) (bs "key")) Works true) Hangs d'.
Proof.
  destruct (C39_hang_refuted toy_sha toy_base toy_disk3 alice (mkChunk 0 (toy_sha (bs "key")) (bs "key")) Works []
    (enc ChunkNew_codec trap) trap [] (bs "a")) as [H _]; auto; try discriminate; try (vm_compute; reflexivity).
  - intros [E|[]]; discriminate.
  - all_bytes.
Qed.

Example C38_blocked_case : exists d2,
  truns toy_sha toy_base toy_disk
    [(TNew alice (mkChunkNew 3 3 (hex_encode bob) [] [] (toy_sha (bs "key"))) Works true, Quiet);
     (TChunk alice (mkChunk 0 (toy_sha (bs "key")) (bs "key")) Works true, Complete (hex_encode bob :: toy_base))] d2 /\
  forall t d', truns toy_sha toy_base d2 t d' -> Forall (fun eo => Forall is_byte (sender (fst eo))) t ->
    Forall (fun eo => snd eo = Refused) (theirs bob t).
Proof.
  apply (C38_blocked_refuted toy_sha toy_base toy_disk alice bob [] [] (bs "key")).
  - apply toy_way; auto.
  - all_bytes.
  - reflexivity.
  - all_bytes.
  - all_bytes.
  - discriminate.
  - discriminate.
  - reflexivity.
  - intros y. destruct (mget toy_disk (y :: hex_encode bob :: toy_base)) as [n|] eqn:E; auto. exfalso. cbn [toy_disk mget] in E. look E. discriminate.
  - chunk_new_ok.
Qed.

Definition big_news := mkChunkNew 9 2 (bs "b.txt") [] [] (toy_sha (bs "something")).
Example C38_overlap_case : exists t d', truns toy_sha toy_base toy_disk t d' /\
  map fst t = TNew alice hello_news Works true :: TNew alice big_news Works true :: map (fun c => TChunk alice c Works true) hello_chunks /\
  Forall (fun eo => snd eo = Quiet) t.
Proof.
  destruct (C38_handled toy_sha toy_base (TNew alice hello_news Works true :: TNew alice big_news Works true :: map (fun c => TChunk alice c Works true) hello_chunks)
    toy_disk toy_tidy) as (t & d' & E & R).
  { repeat (apply Forall_cons; [split; [split; [all_bytes|cbn; split; [try chunk_new_ok; all_bytes|try all_bytes; reflexivity]]|
      cbn; try exact I; repeat split; try discriminate; cbn; intros E; repeat destruct E as [E|E]; try discriminate; auto]|]). constructor. }
  exists t, d'. split; auto. split; auto.
  apply (C38_overlap_refuted toy_sha toy_base 2 (bs "hello") [bs "he"; bs "ll"; bs "o"] toy_disk alice hello_news big_news t d').
  - change (bs "hello") with (bs "he" ++ bs "ll" ++ bs "o" ++ []). repeat (apply Reads_more; [discriminate|vm_compute; discriminate|]). constructor.
  - reflexivity.
  - reflexivity.
  - chunk_new_ok.
  - chunk_new_ok.
  - all_bytes.
  - all_bytes.
  - apply toy_way; auto.
  - exact R.
  - exact E.
Qed.
