(** Facts about file transfer. *)
From Verif Require Import Base XdrModel XdrProofs RpcModel RpcProofs HexModel UiModel ChunkModel BlobProps AcctProofs.
Local Open Scope N_scope.

(** * Disks *)

Definition rooted (p : path) : Prop := p <> [].

Lemma mkdir_all_spec (d : disk) (q p : path) :
  mget (mkdir_all d q) p = mget d p \/
  (mget d p = None /\ mget (mkdir_all d q) p = Some Dir /\ p <> [] /\ exists l, q = l ++ p).
Proof.
  induction q as [|x q IH]; cbn [mkdir_all]; auto.
  destruct (negb (there (mkdir_all d q) (x :: q)) && is_dir (mkdir_all d q) q) eqn:E.
  - rewrite mget_mset. destruct (eqb_spec p (x :: q)) as [->|Np].
    + apply andb_true_iff in E as [E _]. apply negb_true_iff in E. unfold there in E.
      destruct (mget (mkdir_all d q) (x :: q)) eqn:G; [discriminate|].
      right. split; [|split; [auto|split; [discriminate|now exists []]]].
      destruct IH as [IH|(A & _)]; congruence.
    + destruct IH as [IH|(A & B & C & l & ->)]; [auto|right; repeat split; auto].
      exists (x :: l). reflexivity.
  - destruct IH as [IH|(A & B & C & l & ->)]; [auto|right; repeat split; auto].
    exists (x :: l). reflexivity.
Qed.

Lemma mkdir_all_keeps (d : disk) q p n : mget d p = Some n -> mget (mkdir_all d q) p = Some n.
Proof. intros E. destruct (mkdir_all_spec d q p) as [->|(H & _)]; congruence. Qed.

Lemma is_dir_keeps (d d' : disk) p : (forall n, mget d p = Some n -> mget d' p = Some n) -> is_dir d p = true -> is_dir d' p = true.
Proof. unfold is_dir. destruct p as [|b p]; auto. intros H. destruct (mget d (b :: p)) as [[]|]; try discriminate. now rewrite (H Dir eq_refl). Qed.

Lemma is_dir_there d p : is_dir d p = true -> there d p = true.
Proof. unfold is_dir, there. destruct p as [|b p]; auto. destruct (mget d (b :: p)) as [[]|]; auto; discriminate. Qed.

Lemma there_false d p : there d p = false -> p <> [] /\ mget d p = None.
Proof. unfold there. destruct p as [|b p]; [discriminate|]. destruct (mget d (b :: p)); [discriminate|]. split; auto. discriminate. Qed.

Lemma mkdir_all_makes d x q : is_dir d q = true -> file_at d (x :: q) = None -> is_dir (mkdir_all d (x :: q)) (x :: q) = true.
Proof.
  intros D F. cbn [mkdir_all].
  assert (D1 : is_dir (mkdir_all d q) q = true).
  { apply (is_dir_keeps d); auto. intros. now apply mkdir_all_keeps. }
  rewrite D1, andb_true_r. unfold there.
  destruct (mget (mkdir_all d q) (x :: q)) as [n|] eqn:G; cbn [negb].
  - unfold is_dir. rewrite G. destruct n; auto. exfalso.
    destruct (mkdir_all_spec d q (x :: q)) as [E|(_ & E & _)]; [|congruence].
    rewrite G in E. unfold file_at in F. rewrite <- E in F. discriminate.
  - unfold is_dir. now rewrite mget_mset_eq.
Qed.

Lemma create_gives d p b d' : create d p b = Some d' -> d' = mset d p (File b) /\ is_dir d (tl p) = true /\ is_dir d p = false.
Proof.
  unfold create. destruct (is_dir d (tl p)) eqn:A, (is_dir d p) eqn:B; cbn; try discriminate. now intros [= <-].
Qed.
Lemma create_works d p b : is_dir d (tl p) = true -> is_dir d p = false -> create d p b = Some (mset d p (File b)).
Proof. intros A B. unfold create. now rewrite A, B. Qed.

Lemma file_at_mset d p b q : file_at (mset d p (File b)) q = if eqb q p then Some b else file_at d q.
Proof. unfold file_at. rewrite mget_mset. now destruct (eqb q p). Qed.
Lemma file_at_mdel d p q : file_at (mdel d p) q = if eqb q p then None else file_at d q.
Proof. unfold file_at. rewrite mget_mdel. now destruct (eqb q p). Qed.
Lemma file_at_Some (d : disk) p b : file_at d p = Some b -> mget d p = Some (File b).
Proof. unfold file_at. destruct (mget d p) as [[]|]; congruence. Qed.

(** * Sizes *)

Lemma same_size_spec n x : x < 2 ^ 64 -> same_size n x = true -> x = N.of_nat n.
Proof.
  unfold same_size, to_int64. change (2 ^ 63) with 9223372036854775808. change (2 ^ 64)%Z with 18446744073709551616%Z.
  change (2 ^ 64) with 18446744073709551616. destruct (N.ltb_spec x 9223372036854775808); lia.
Qed.
Lemma same_size_refl n : N.of_nat n < 2 ^ 63 -> same_size n (N.of_nat n) = true.
Proof.
  unfold same_size, to_int64. intros H. apply N.ltb_lt in H. rewrite H. apply Z.eqb_eq. lia.
Qed.

(** * Names *)

Lemma descriptor_not_hex a : Forall is_byte a -> hex_encode a <> descriptor.
Proof.
  intros A E. pose proof (f_equal (@length N) E) as L.
  apply hex_round in A. rewrite E in A. vm_compute in A. discriminate.
Qed.

Lemma split_plain acc name : ~ In 47 name -> split_slash acc name = [rev acc ++ name].
Proof.
  revert acc. induction name as [|c name IH]; intros acc H; cbn [split_slash]; [now rewrite app_nil_r|].
  destruct (eqb_spec c 47) as [->|Nc]; [exfalso; apply H; now left|].
  rewrite IH by (intros I; apply H; now right). cbn [rev]. now rewrite <- app_assoc.
Qed.
Lemma split_seg acc c r : ~ In 47 c -> split_slash acc (c ++ 47 :: r) = (rev acc ++ c) :: split_slash [] r.
Proof.
  revert acc. induction c as [|x c IH]; intros acc H; cbn [split_slash app].
  - rewrite eqb_refl. now rewrite app_nil_r.
  - destruct (eqb_spec x 47) as [->|Nx]; [exfalso; apply H; now left|].
    rewrite IH by (intros I; apply H; now right). cbn [rev]. now rewrite <- app_assoc.
Qed.

(** A name of one component that path.Join leaves alone. *)
Definition plain (name : bytes) : Prop := ~ In 47 name /\ name <> [] /\ name <> [46] /\ name <> [46; 46].

Lemma walk_plain dir name : name <> [] -> name <> [46] -> name <> [46; 46] -> walk dir name = name :: dir.
Proof.
  intros A B C. unfold walk. change (bs ".") with [46]. change (bs "..") with [46; 46].
  apply eqb_neq in A, B, C. now rewrite A, B, C.
Qed.

Lemma ones_plain name k : ~ In 47 name -> ~ In 47 (repeat 49 k ++ name).
Proof. intros H I. apply in_app_or in I as [I|I]; auto. now apply repeat_spec in I. Qed.

Lemma candidate_no_slash base name k : ~ In 47 name -> candidate base name k = walk base (repeat 49 k ++ name).
Proof. intros H. unfold candidate, join. rewrite split_plain by now apply ones_plain. reflexivity. Qed.

Lemma candidate_later base name k : ~ In 47 name -> candidate base name (S k) = (repeat 49 (S k) ++ name) :: base.
Proof. intros H. rewrite candidate_no_slash by auto. apply walk_plain; cbn [repeat app]; discriminate. Qed.

Lemma candidate_plain base name k : plain name -> candidate base name k = (repeat 49 k ++ name) :: base.
Proof.
  intros (H & A & B & C). destruct k; [|now apply candidate_later].
  rewrite candidate_no_slash by auto. now apply walk_plain.
Qed.

(** * The handlers *)

Section Chunks.
  Variable sha : bytes -> bytes.
  Variable base : path.
  Notation tstep := (tstep sha base).
  Notation truns := (truns sha base).

  Definition digest_of (e : tevent) : bytes :=
    match e with TNew _ cn _ _ => ChunkNew_Digest cn | TChunk _ c _ _ => Chunk_Digest c end.

  Lemma move_cases d from dg content full f o d' : (o, d') = move base d from dg content full f ->
    (o = Refused /\ d' = d) \/
    (o = Complete full /\ is_dir d (tl full) = true /\ f <> NoRename /\
     d' = let d1 := mset (mdel d (spool_of base from dg)) full (File content) in
          match f with NoRemove => d1 | _ => mdel d1 (desc_of base from) end).
  Proof.
    unfold move. destruct (is_dir d (tl full)) eqn:D; destruct f; intros E; apply pair_equal_spec in E as [-> ->]; auto;
    right; repeat split; auto; discriminate.
  Qed.

  Lemma finish_cases d from dg content cn f known o d' : finish sha base d from dg content cn f known o d' ->
    (d' = d /\ (forall p, o <> Complete p) /\ (o = Quiet -> same_size (length content) (ChunkNew_Size cn) = false)) \/
    (same_size (length content) (ChunkNew_Size cn) = true /\ known = true /\ sha content = ChunkNew_Digest cn /\
     exists k, there d (candidate base (ChunkNew_Filename cn) k) = false /\
        (forall j, (j < k)%nat -> there d (candidate base (ChunkNew_Filename cn) j) = true) /\
        (o, d') = move base d from dg content (candidate base (ChunkNew_Filename cn) k) f).
  Proof.
    unfold finish. destruct (same_size _ _); cbn [negb]; [|intros [-> ->]; left; repeat split; discriminate || auto].
    destruct known; cbn [negb]; [|intros [-> ->]; left; repeat split; discriminate || auto].
    assert (H : ((if negb (eqb (sha content) (ChunkNew_Digest cn)) then o = Refused /\ d' = d
             else (exists k, there d (candidate base (ChunkNew_Filename cn) k) = false /\
                      (forall j, (j < k)%nat -> there d (candidate base (ChunkNew_Filename cn) j) = true) /\
                      (o, d') = move base d from dg content (candidate base (ChunkNew_Filename cn) k) f)
                  \/ ((forall k, there d (candidate base (ChunkNew_Filename cn) k) = true) /\ o = Hangs /\ d' = d)) ->
       (d' = d /\ (forall p, o <> Complete p) /\ (o = Quiet -> true = false)) \/
       (true = true /\ true = true /\ sha content = ChunkNew_Digest cn /\
        exists k, there d (candidate base (ChunkNew_Filename cn) k) = false /\
        (forall j, (j < k)%nat -> there d (candidate base (ChunkNew_Filename cn) j) = true) /\
        (o, d') = move base d from dg content (candidate base (ChunkNew_Filename cn) k) f))).
    { destruct (eqb_spec (sha content) (ChunkNew_Digest cn)); cbn [negb].
      - intros [E|(_ & -> & ->)]; [right; auto|left; repeat split; discriminate || auto].
      - intros [-> ->]; left; repeat split; discriminate || auto. }
    destruct f; auto. intros [-> ->]; left; repeat split; discriminate || auto.
  Qed.

  Lemma chunk_cases d from c f known o d' : handle_chunk sha base d from c f known o d' ->
    (o = Refused /\ d' = d) \/
    exists old, file_at d (spool_of base from (Chunk_Digest c)) = Some old /\
      same_size (length old) (Chunk_Offset c) = true /\
      ((o = Refused /\ exists b, d' = mset d (spool_of base from (Chunk_Digest c)) (File b)) \/
       let d1 := mset d (spool_of base from (Chunk_Digest c)) (File (old ++ Chunk_Payload c)) in
       exists b cn rest, file_at d1 (desc_of base from) = Some b /\ dec ChunkNew_codec 0 b = Some (cn, rest) /\
         finish sha base d1 from (Chunk_Digest c) (old ++ Chunk_Payload c) cn f known o d').
  Proof.
    unfold handle_chunk. set (S0 := spool_of base from (Chunk_Digest c)) in *.
    destruct (file_at d S0) as [old|] eqn:FO; [|destruct f; intros [-> ->]; auto].
    destruct (same_size (length old) (Chunk_Offset c)) eqn:SO; cbn [negb]; [|destruct f; intros [-> ->]; auto].
    cbv zeta. set (d1 := mset d S0 (File (old ++ Chunk_Payload c))) in *.
    destruct f; try (intros [-> ->]; auto; fail);
    try (intros [-> ->]; right; exists old; split; auto; split; auto; left; split; auto; eexists; reflexivity);
    (destruct (file_at d1 (desc_of base from)) as [b|] eqn:FD;
      [|intros [-> ->]; right; exists old; split; auto; split; auto; left; split; auto; eexists; reflexivity]);
    try (intros [-> ->]; right; exists old; split; auto; split; auto; left; split; auto; eexists; reflexivity);
    (destruct (dec ChunkNew_codec 0 b) as [[cn r]|] eqn:Db;
      [|intros [-> ->]; right; exists old; split; auto; split; auto; left; split; auto; eexists; reflexivity]);
    intros E; right; exists old; split; auto; split; auto; right; exists b, cn, r; auto.
  Qed.

  (** What a message may change. *)
  Lemma frame d e o d' p : tstep d e o d' ->
    mget d' p = mget d p \/
    p = desc_of base (sender e) \/ p = spool_of base (sender e) (digest_of e) \/
    (mget d p = None /\ mget d' p = Some Dir /\ exists l, dir_of base (sender e) = l ++ p) \/
    (mget d p = None /\ o = Complete p).
  Proof.
    destruct e as [from cn f known|from c f known]; cbn [ChunkModel.tstep sender digest_of].
    - unfold handle_new. intros E.
      destruct (EqB_dec p (desc_of base from)) as [|Nd]; [auto|].
      destruct (EqB_dec p (spool_of base from (ChunkNew_Digest cn))) as [|Ns]; [auto|].
      assert (M : mget d' p = mget (mkdir_all d (dir_of base from)) p).
      { destruct f; try (apply pair_equal_spec in E as [_ ->]; reflexivity);
        repeat match type of E with context [create ?a ?b ?c] =>
          let K := fresh "K" in destruct (create a b c) eqn:K; [apply create_gives in K as (-> & _ & _)|] end;
        apply pair_equal_spec in E as [_ ->]; rewrite ?mget_mset_ne by auto; reflexivity. }
      destruct (mkdir_all_spec d (dir_of base from) p) as [Q|(A & B & _ & C)]; [left; congruence|].
      right; right; right; left. rewrite M. auto.
    - intros E. apply chunk_cases in E.
      destruct (EqB_dec p (desc_of base from)) as [|Nd]; [auto|].
      destruct (EqB_dec p (spool_of base from (Chunk_Digest c))) as [|Ns]; [auto|].
      destruct E as [(-> & ->)|(old & FO & _ & E)]; [auto|].
      destruct E as [(-> & b & ->)|E]; [rewrite mget_mset_ne by auto; auto|].
      cbv zeta in E. set (d1 := mset d _ _) in *.
      assert (M : mget d1 p = mget d p) by (unfold d1; now rewrite mget_mset_ne).
      destruct E as (b & cn & rest & _ & _ & E). apply finish_cases in E as [(-> & _)|(_ & _ & _ & k & T & _ & Mv)]; [auto|].
      apply move_cases in Mv as [(-> & ->)|(-> & _ & _ & ->)]; [auto|].
      destruct (EqB_dec p (candidate base (ChunkNew_Filename cn) k)) as [->|Np].
      { right; right; right; right. split; auto. rewrite <- M. now apply there_false in T. }
      left. cbv zeta.
      assert (G : mget (mset (mdel d1 (spool_of base from (Chunk_Digest c))) (candidate base (ChunkNew_Filename cn) k)
                          (File (old ++ Chunk_Payload c))) p = mget d p).
      { rewrite mget_mset_ne, mget_mdel by auto. destruct (eqb_spec p (spool_of base from (Chunk_Digest c))); [congruence|auto]. }
      destruct f; try (rewrite mget_mdel; destruct (eqb_spec p (desc_of base from)); [congruence|]); auto.
  Qed.

  (** What a completed file is. *)
  Lemma complete_inv d e p d' : tstep d e (Complete p) d' ->
    exists from c f old b cn rest k, e = TChunk from c f true /\
      file_at d (spool_of base from (Chunk_Digest c)) = Some old /\
      same_size (length old) (Chunk_Offset c) = true /\
      file_at (mset d (spool_of base from (Chunk_Digest c)) (File (old ++ Chunk_Payload c))) (desc_of base from) = Some b /\
      dec ChunkNew_codec 0 b = Some (cn, rest) /\
      same_size (length (old ++ Chunk_Payload c)) (ChunkNew_Size cn) = true /\
      sha (old ++ Chunk_Payload c) = ChunkNew_Digest cn /\
      p = candidate base (ChunkNew_Filename cn) k /\
      there d p = false /\
      (forall j, (j < k)%nat -> there d (candidate base (ChunkNew_Filename cn) j) = true) /\
      is_dir d (tl p) = true /\
      mget d' p = Some (File (old ++ Chunk_Payload c)) /\
      file_at d' (spool_of base from (Chunk_Digest c)) = None /\
      (f = Works -> file_at d' (desc_of base from) = None).
  Proof.
    destruct e as [from cn f known|from c f known]; cbn [ChunkModel.tstep].
    - unfold handle_new. intros E. exfalso.
      destruct f; try discriminate; repeat match type of E with context [create ?a ?b ?c] => destruct (create a b c) end;
        try discriminate; destruct known; discriminate.
    - intros E. apply chunk_cases in E as [(E & _)|(old & FO & SO & E)]; [discriminate|].
      destruct E as [(E & _)|E]; [discriminate|]. cbv zeta in E. set (d1 := mset d _ _) in *.
      destruct E as (b & cn & rest & FD & Db & E).
      apply finish_cases in E as [(_ & E & _)|(SS & -> & Sh & k & T & Early & Mv)]; [now destruct (E p)|].
      apply move_cases in Mv as [(E & _)|(E & D & _ & ->)]; [discriminate|]. injection E as ->.
      assert (Th : forall q, there d1 q = there d q).
      { intros q. unfold there. destruct q as [|b0 q]; auto. unfold d1. rewrite mget_mset.
        destruct (eqb_spec (b0 :: q) (spool_of base from (Chunk_Digest c))) as [->|]; auto. apply file_at_Some in FO. now rewrite FO. }
      exists from, c, f, old, b, cn, rest, k. do 8 (split; [auto; fail|]).
      split; [now rewrite <- Th|].
      split; [intros j L; rewrite <- Th; auto|].
      split.
      { unfold is_dir in D |- *. destruct (tl (candidate base (ChunkNew_Filename cn) k)) as [|x q] eqn:Q; auto.
        unfold d1 in D. rewrite mget_mset in D. destruct (eqb_spec (x :: q) (spool_of base from (Chunk_Digest c))); [discriminate|auto]. }
      cbv zeta.
      assert (Nd : candidate base (ChunkNew_Filename cn) k <> desc_of base from).
      { intros Q. rewrite Q in T. apply there_false in T as (_ & T). unfold file_at in FD. rewrite T in FD. discriminate. }
      split; [destruct f; try (rewrite mget_mdel; destruct (eqb_spec (candidate base (ChunkNew_Filename cn) k) (desc_of base from)); [congruence|]);
      apply mget_mset_eq|].
      assert (Ns : eqb (spool_of base from (Chunk_Digest c)) (candidate base (ChunkNew_Filename cn) k) = false).
      { apply eqb_neq. intros Q. rewrite <- Q, Th in T. apply there_false in T as (_ & T). unfold file_at in FO. rewrite T in FO. discriminate. }
      split; [|intros ->; now rewrite file_at_mdel, eqb_refl].
      destruct f; rewrite ?file_at_mdel, file_at_mset, Ns, file_at_mdel, eqb_refl; try reflexivity;
      destruct (eqb (spool_of base from (Chunk_Digest c)) (desc_of base from)); reflexivity.
  Qed.
End Chunks.
