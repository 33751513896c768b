(** The ratchets of a conversation in which messages arrive in order and few are lost,
    for WholeProofs.v. *)
From Verif Require Import Base XdrModel RpcModel RatchetModel RatchetProofs RatchetSaveProofs RatchetConvModel RatchetConvProofs
  SessionProps RatchetProps CrashModel CrashProofs CrashProps OnceProps.
Local Open Scope N_scope.

Definition taken (done : list event) (who : bool) (ct : bytes) : Prop := exists order now, In (Recv who order now ct) done.

(** Message keys of the first [E] chains are all different. *)
Definition keys_differ (hmac : bytes -> bytes -> bytes) sha256 x25519 base (xs : nat -> bytes) sk (E : nat) : Prop :=
  forall e i e' i', (1 <= e <= E)%nat -> (1 <= e' <= E)%nat ->
  mk hmac sha256 x25519 base xs sk e i = mk hmac sha256 x25519 base xs sk e' i' -> e = e' /\ i = i'.

Definition lab_lt (x y : entry) : Prop :=
  (en_epoch x < en_epoch y)%nat \/ (en_epoch x = en_epoch y /\ en_index x < en_index y).
Definition ofw (who : bool) (log : list entry) : list entry := filter (fun en => Bool.eqb (en_from en) who) (rev log).

Lemma ofw_In who log en : In en (ofw who log) <-> In en log /\ en_from en = who.
Proof. unfold ofw. rewrite filter_In, <- in_rev. now rewrite Bool.eqb_true_iff. Qed.
Lemma ofw_cons who log en : ofw who (en :: log) = ofw who log ++ (if Bool.eqb (en_from en) who then [en] else []).
Proof. unfold ofw. cbn [rev]. rewrite filter_app. reflexivity. Qed.

Lemma SS_snoc {A} (R : A -> A -> Prop) l x : StronglySorted R l -> (forall y, In y l -> R y x) -> StronglySorted R (l ++ [x]).
Proof.
  induction l as [|y l IH]; intros S H; cbn; [now repeat constructor|]. inversion S; subst. constructor.
  - apply IH; auto. intros z Z. apply H. now right.
  - apply Forall_app. split; auto. constructor; [apply H; now left|constructor].
Qed.

Section Ratchet.
Variable hmac : bytes -> bytes -> bytes.
Variable sha256 : bytes -> bytes.
Variable x25519 : bytes -> bytes -> option bytes.
Variable base : bytes -> bytes.
Variable seal : bytes -> bytes -> bytes -> bytes.
Variable unseal : bytes -> bytes -> bytes -> option bytes.
Variable xs : nat -> bytes.
Variable sk : bytes.
Variable E : nat.
Variables a b : ratchet.
Variables t0 t1 : Z.
Hypothesis ST : setting hmac sha256 x25519 base seal unseal xs sk E a b t0 t1.
Hypothesis KL : key_law seal unseal.
Hypothesis KD : keys_differ hmac sha256 x25519 base xs sk E.
Notation reach := (reach hmac sha256 x25519 base seal unseal xs a b t0 t1).
Notation memory := (memory hmac sha256 x25519 base seal unseal xs a b).
Notation decrypt := (decrypt hmac sha256 x25519 unseal).
Notation encrypt := (encrypt hmac sha256 x25519 base seal).
Notation inv := (inv hmac sha256 x25519 base seal xs sk).
Notation step := (step hmac sha256 x25519 base seal unseal xs).
Notation transmit := (transmit hmac sha256 x25519 base seal).
Notation genuine := (genuine hmac sha256 x25519 base seal xs sk).
Notation hk := (hk hmac sha256 x25519 base xs sk).
Notation mk := (mk hmac sha256 x25519 base xs sk).

Definition small (done : list event) : Prop := few (length done) /\ (length done + 3 <= E)%nat.

Let B1 := proj1 (st_box _ _ _ _ _ _ _ _ _ _ _ _ _ ST).
Let B2 := proj2 (st_box _ _ _ _ _ _ _ _ _ _ _ _ _ ST).
Let BL := st_base _ _ _ _ _ _ _ _ _ _ _ _ _ ST.
Let J1 := proj1 (st_keys _ _ _ _ _ _ _ _ _ _ _ _ _ ST).
Let J2 := proj1 (proj2 (st_keys _ _ _ _ _ _ _ _ _ _ _ _ _ ST)).
Let J3 := proj2 (proj2 (st_keys _ _ _ _ _ _ _ _ _ _ _ _ _ ST)).

Record conv (done : list event) : Prop := {
  cv_inv : inv (memory done);
  cv_cur : forall who, (i_cur (w_i (memory done) who) <= 1 + length done)%nat;
  cv_len : (length (w_log (memory done)) <= length done)%nat;
  cv_got : forall who l, In l (i_got (w_i (memory done) who)) ->
    exists en, In en (w_log (memory done)) /\ en_from en = negb who /\ fst (en_label en) = l /\ taken done who (en_ct en);
  cv_took : forall who en, taken done who (en_ct en) -> In en (w_log (memory done)) -> en_from en = negb who ->
    In (fst (en_label en)) (i_got (w_i (memory done) who));
  cv_known : forall who ct, taken done who ct -> exists en, In en (w_log (memory done)) /\ en_from en = negb who /\ en_ct en = ct;
  cv_high : forall who, let p := w_i (memory done) who in
    (i_high p = 0 -> (recv_epoch p <= 1)%nat) /\ (i_high p <> 0 -> In (recv_epoch p, i_high p - 1) (i_got p));
  cv_sorted : forall who, StronglySorted lab_lt (ofw who (w_log (memory done)))
}.

Lemma conv_start : conv [].
Proof.
  pose proof (setting_inv _ _ _ _ _ _ _ _ _ _ _ _ _ ST []) as X. cbn [length fair] in X.
  constructor; cbn.
  - destruct (setting_start _ _ _ _ _ _ _ _ _ _ _ _ _ ST) as (ma & mb & -> & ->).
    exact (start_inv hmac sha256 x25519 base seal unseal xs sk E B1 B2 BL J1 J2 J3 ma mb).
  - intros [|]; cbn; lia.
  - lia.
  - intros [|] l [].
  - intros who en (o & n & []).
  - intros who ct (o & n & []).
  - intros [|]; cbn; split; intros; try lia; congruence.
  - intros who. constructor.
Qed.

Lemma label_parts w en : inv w -> N.of_nat (length (w_log w)) < 2 ^ 32 - 1 -> In en (w_log w) ->
  exists e i p mn h, en_label en = (e, i, p) /\ ct_header (en_ct en) = seal (hk e) (ct_nonce (en_ct en)) h /\
    ct_body (en_ct en) = seal (mk e i) mn (en_plain en) /\ (1 <= e)%nat /\ en_from en = sender e /\ i < cnt (w_log w) e /\ p = cnt (w_log w) (e - 2).
Proof.
  intros I L H. pose proof (li_genuine _ _ _ _ _ _ _ _ (iv_log _ _ _ _ _ _ _ _ I) en H) as G.
  destruct (genuine_parts hmac sha256 x25519 base seal unseal xs sk E B1 B2 BL J1 J2 J3 _ _ G L) as (e & i & p & h & mn & X). exists e, i, p, mn, h. tauto.
Qed.

Lemma genuine_unforged w en : inv w -> N.of_nat (length (w_log w)) < 2 ^ 32 - 1 -> (forall who, (i_cur (w_i w who) <= E)%nat) ->
  In en (w_log w) -> unforged hmac sha256 x25519 base unseal xs sk E (w_log w) (en_ct en).
Proof.
  intros I L C H. destruct (label_parts w en I L H) as (e & i & p & mn & h & El & Hh & Hb & He & Hf & Hi & Hp).
  assert (LE : (e <= E)%nat).
  { pose proof (epoch_reached hmac sha256 x25519 base seal unseal xs sk E B1 B2 BL J1 J2 J3 w true en I H) as X.
    unfold en_epoch in X. rewrite El in X. cbn [fst negb] in X. pose proof (C true). pose proof (C false). lia. }
  split.
  - intros e' h' He' U. rewrite Hh in U. apply KL in U. apply J2 in U; [|lia|lia]. subst e'. exists en. unfold en_epoch. rewrite El. auto.
  - intros e' i' n m He' U. rewrite Hb in U. apply KL in U. apply KD in U as [-> ->]; [|lia|lia]. exists en. unfold en_epoch, en_index. rewrite El. auto.
Qed.

Lemma find_en w who en : inv w -> In en (w_log w) -> en_from en = negb who -> find_sent (w_log w) (negb who) (en_ct en) = Some en.
Proof.
  intros I H F. rewrite (find_sent_spec _ _ _ _ _ _ _ _ _ _ en (iv_log _ _ _ _ _ _ _ _ I) H eq_refl). now rewrite F, Bool.eqb_reflx, eqb_refl.
Qed.

(** What the ratchet on disk says to a genuine message is what the specification says. *)
Lemma disk_ideal done D p who order now r r' o en : reach done D -> conv done -> small done -> load p (D who) = Some r ->
  (forall l, Permutation l (order l)) -> In en (w_log (memory done)) -> en_from en = negb who ->
  decrypt (order (mkeys (saved r))) now r (en_ct en) = (r', o) ->
  (match o with Got m => Some m | _ => None end) =
    (if snd (ideal_recv (w_i (memory done) who) (en_label en) (en_plain en)) then Some (en_plain en) else None) /\
  (exists rr, fst (step (memory done) (Recv who order now (en_ct en))) =
     mkWorld rr (set (w_i (memory done)) who (fst (ideal_recv (w_i (memory done) who) (en_label en) (en_plain en)))) (w_log (memory done))) /\
  inv (fst (step (memory done) (Recv who order now (en_ct en)))).
Proof.
  intros R V [F S] L P H Fr De. pose proof (disk_answer _ _ _ _ _ _ _ _ _ _ _ _ _ ST done D p who order now (en_ct en) r r' o R F L De) as A.
  pose proof (cv_cur _ V) as C. pose proof (cv_len _ V) as Ln. pose proof (cv_inv _ V) as I.
  assert (LL : N.of_nat (length (w_log (memory done))) < 2 ^ 32 - 1) by (unfold few in F; lia).
  assert (U : unforged hmac sha256 x25519 base unseal xs sk E (w_log (memory done)) (en_ct en)).
  { apply genuine_unforged; auto. intros w0. specialize (C w0). lia. }
  destruct (recv_ok hmac sha256 x25519 base seal unseal xs sk E B1 B2 BL J1 J2 J3 (memory done) who order now (en_ct en) I LL) as (I' & Q & _); auto.
  { specialize (C who). lia. } { specialize (C (negb who)). lia. }
  split; [|split; [|exact I']].
  - rewrite <- A. unfold answer. rewrite Q. cbn [RatchetConvModel.step]. rewrite (find_en _ _ _ I H Fr).
    destruct (decrypt _ now (w_r (memory done) who) (en_ct en)). destruct (ideal_recv _ _ _) as [p' ok]. reflexivity.
  - cbn [RatchetConvModel.step]. rewrite (find_en _ _ _ I H Fr). destruct (decrypt _ now (w_r (memory done) who) (en_ct en)) as [rr oo].
    destruct (ideal_recv _ _ _) as [p' ok]. eexists. reflexivity.
Qed.

Lemma conv_recv done D p who order now r r' m en : reach done D -> conv done -> small done -> load p (D who) = Some r ->
  (forall l, Permutation l (order l)) -> In en (w_log (memory done)) -> en_from en = negb who ->
  decrypt (order (mkeys (saved r))) now r (en_ct en) = (r', Got m) ->
  conv (done ++ [Recv who order now (en_ct en)]) /\ m = en_plain en /\ ~ taken done who (en_ct en) /\
  w_log (memory (done ++ [Recv who order now (en_ct en)])) = w_log (memory done).
Proof.
  intros R V S L P H Fr De. destruct (disk_ideal done D p who order now r r' _ en R V S L P H Fr De) as (A & (rr & W) & I').
  pose proof (cv_inv _ V) as I.
  assert (NT : ~ taken done who (en_ct en)).
  { intros X. apply (cv_took _ V) in X; auto. rewrite (ideal_again _ _ _ X) in A. discriminate. }
  pose proof (ideal_took (w_i (memory done) who) (en_label en) (en_plain en)) as TK.
  pose proof (fun x => ideal_got (w_i (memory done) who) (en_label en) (en_plain en) x) as KG.
  assert (M : memory (done ++ [Recv who order now (en_ct en)]) = fst (step (memory done) (Recv who order now (en_ct en)))) by apply memory_snoc.
  destruct (snd (ideal_recv _ _ _)) eqn:OK in A; [|discriminate]. injection A as ->. specialize (TK OK).
  split; [|split; [reflexivity|split; [exact NT|now rewrite M, W]]].
  assert (TL : forall w0 ct, taken done w0 ct -> taken (done ++ [Recv who order now (en_ct en)]) w0 ct).
  { intros w0 ct (o & n & X). exists o, n. apply in_or_app. now left. }
  assert (TR : forall w0 ct, taken (done ++ [Recv who order now (en_ct en)]) w0 ct -> taken done w0 ct \/ (w0 = who /\ ct = en_ct en)).
  { intros w0 ct (o & n & X). apply in_app_iff in X as [X|[[= -> -> -> ->]|[]]]; [left; exists o, n; auto|auto]. }
  assert (GT : forall x, In x (i_got (fst (ideal_recv (w_i (memory done) who) (en_label en) (en_plain en)))) ->
     x = fst (en_label en) \/ In x (i_got (w_i (memory done) who))).
  { intros x. unfold ideal_recv. destruct (en_label en) as [[e i] pv]. cbn [fst].
    repeat match goal with |- context [if ?c then _ else _] => destruct c end; cbn [fst i_got In]; auto; intros [<-|X]; auto. }
  constructor; rewrite M, ?W; cbn [w_log w_i].
  - now rewrite <- W.
  - intros w0. rewrite app_length. cbn [length]. pose proof (cv_cur _ V w0) as C.
    pose proof (recv_ok hmac sha256 x25519 base seal unseal xs sk E B1 B2 BL J1 J2 J3 (memory done) who order now (en_ct en) I) as Q.
    destruct S as [F S]. pose proof (cv_cur _ V) as Cu. pose proof (cv_len _ V) as Ln.
    destruct Q as (_ & _ & _ & [Q _]); auto.
    { unfold few in F. lia. } { specialize (Cu who). lia. } { specialize (Cu (negb who)). lia. }
    { apply genuine_unforged; auto. { unfold few in F. lia. } intros w1. specialize (Cu w1). lia. }
    specialize (Q w0). rewrite W in Q. cbn [w_i] in Q. lia.
  - rewrite app_length. pose proof (cv_len _ V). lia.
  - intros w0 l X. unfold set in X. destruct (Bool.eqb_spec w0 who) as [->|].
    + apply GT in X as [->|X].
      * exists en. repeat split; auto. exists order, now. apply in_or_app. right. now left.
      * destruct (cv_got _ V _ _ X) as (en' & Y1 & Y2 & Y3 & Y4). exists en'. auto.
    + destruct (cv_got _ V _ _ X) as (en' & Y1 & Y2 & Y3 & Y4). exists en'. auto.
  - intros w0 en' X Y Z. unfold set. destruct (Bool.eqb_spec w0 who) as [->|N].
    + apply TR in X as [X|[_ X]]; [apply KG, (cv_took _ V); auto|].
      assert (en' = en); [|subst; auto]. apply (li_nonce _ _ _ _ _ _ _ _ (iv_log _ _ _ _ _ _ _ _ I)); auto. now rewrite X.
    + apply TR in X as [X|[X _]]; [|congruence]. apply (cv_took _ V); auto.
  - intros w0 ct X. apply TR in X as [X|[-> ->]]; [apply (cv_known _ V); auto|exists en; auto].
  - intros w0. unfold set. destruct (Bool.eqb_spec w0 who) as [->|N]; [|apply (cv_high _ V)].
    pose proof (cv_high _ V who) as Hi. cbv zeta in *. unfold ideal_recv in *. destruct (en_label en) as [[e i] pv] eqn:El.
    destruct (mem (e, i) (i_got (w_i (memory done) who))); [discriminate|].
    destruct ((e <? recv_epoch _)%nat || _) eqn:X1.
    + cbn [fst i_high i_got]. change (recv_epoch (mkI _ _ _ _ _ _)) with (recv_epoch (w_i (memory done) who)).
      destruct Hi as [Hi1 Hi2]. split; [exact Hi1|intros X; right; exact (Hi2 X)].
    + destruct ((e =? recv_epoch _)%nat) eqn:X2.
      * destruct (80 <? i - i_high (w_i (memory done) who)); [discriminate|]. cbn [fst i_high i_got]. change (recv_epoch (mkI _ _ _ _ _ _)) with (recv_epoch (w_i (memory done) who)).
        apply Nat.eqb_eq in X2. split; [lia|]. intros _. left. f_equal; lia.
      * destruct ((80 <? pv - i_high (w_i (memory done) who)) || (80 <? i)); [discriminate|]. cbn [fst i_high i_got recv_epoch i_turn i_cur]. split; [lia|intros _; left; f_equal; lia].
  - intros w0. apply (cv_sorted _ V).
Qed.

Lemma conv_send done D who priv hn mn msg now d' ct : reach done D -> conv done -> small done ->
  transmit priv hn mn msg now (D who) d' (Some ct) true -> priv = xs (fst (fst (snd (ideal_send (w_i (memory done) who))))) ->
  length hn = 24%nat -> length mn = 24%nat -> (forall en, In en (w_log (memory done)) -> ct_nonce (en_ct en) <> hn) ->
  conv (done ++ [Send who hn mn msg]) /\
  exists l, w_log (memory (done ++ [Send who hn mn msg])) = mkEntry who l msg ct :: w_log (memory done).
Proof.
  intros R V [F Sm] T Pr L1 L2 Fr. pose proof (cv_inv _ V) as I. pose proof (cv_cur _ V) as C. pose proof (cv_len _ V) as Ln.
  assert (LL : N.of_nat (length (w_log (memory done))) < 2 ^ 32 - 2) by (unfold few in F; lia).
  destruct (send_ok hmac sha256 x25519 base seal unseal xs sk E B1 B2 BL J1 J2 J3 (memory done) who hn mn msg I LL L1 L2 Fr) as (I' & _ & [A1 A2]).
  inversion T as [|p r r' ct' d'' b' Lo En Sv]; subst ct' d'' b'.
  assert (EN : exists rr, encrypt (w_r (memory done) who) priv hn mn msg = (rr, Some ct)).
  { pose proof (setting_disk _ _ _ _ _ _ _ _ _ _ _ _ _ ST done D R F who) as O.
    eapply on_disk_load with (p := p) in O as (r2 & Q1 & Q2 & _); eauto; try apply ST. rewrite Lo in Q1. injection Q1 as <-.
    destruct (same_op hmac sha256 x25519 base seal unseal _ _ (Enc priv hn mn msg) Q2) as [_ Q3].
    cbn [apply_op] in Q3. rewrite En in Q3. destruct (encrypt (w_r (memory done) who) priv hn mn msg) as [rr [c|]]; cbn [snd] in Q3; [|discriminate].
    exists rr. congruence. }
  destruct EN as [rr EN]. rewrite Pr in EN.
  assert (M : memory (done ++ [Send who hn mn msg]) = mkWorld (set (w_r (memory done)) who rr) (set (w_i (memory done)) who (fst (ideal_send (w_i (memory done) who))))
     (mkEntry who (snd (ideal_send (w_i (memory done) who))) msg ct :: w_log (memory done))).
  { rewrite memory_snoc. cbn [RatchetConvModel.step]. destruct (ideal_send (w_i (memory done) who)) as [i' l]. cbn [fst snd] in *. now rewrite EN. }
  rewrite <- memory_snoc in *. split; [|rewrite M; eexists; reflexivity].
  assert (Got : i_got (fst (ideal_send (w_i (memory done) who))) = i_got (w_i (memory done) who)) by (unfold ideal_send; now destruct (i_turn _)).
  assert (Hig : i_high (fst (ideal_send (w_i (memory done) who))) = i_high (w_i (memory done) who)) by (unfold ideal_send; now destruct (i_turn _)).
  assert (Rec : recv_epoch (fst (ideal_send (w_i (memory done) who))) = recv_epoch (w_i (memory done) who))
    by (unfold ideal_send, recv_epoch; destruct (i_turn (w_i (memory done) who)) eqn:X; cbn [fst i_turn i_cur]; auto).
  assert (TT : forall w0 ct0, taken (done ++ [Send who hn mn msg]) w0 ct0 <-> taken done w0 ct0).
  { intros w0 ct0. split; intros (o & n & X); exists o, n; [|apply in_or_app; now left]. apply in_app_iff in X as [X|[X|[]]]; [auto|discriminate]. }
  assert (NC : ct_nonce ct = hn).
  { unfold RatchetModel.encrypt in EN. destruct (if ratchet_flag _ then _ else _) as [r2 ok]. destruct ok; cbn [negb] in EN; [|discriminate]. injection EN as _ <-. unfold ct_nonce. rewrite <- L1. now apply firstn_app_len. }
  assert (SG : forall w0, i_got (w_i (memory (done ++ [Send who hn mn msg])) w0) = i_got (w_i (memory done) w0)).
  { intros w0. rewrite M. cbn [w_i]. unfold set. destruct (Bool.eqb_spec w0 who) as [->|]; auto. }
  constructor.
  - exact I'.
  - intros w0. specialize (A1 w0). specialize (C w0). rewrite app_length. cbn [length]. lia.
  - rewrite app_length. cbn [length]. lia.
  - intros w0 l X. rewrite SG in X. destruct (cv_got _ V _ _ X) as (en' & Y1 & Y2 & Y3 & Y4). exists en'. rewrite TT. repeat split; auto. rewrite M. now right.
  - intros w0 en' X Y Z. rewrite TT in X. rewrite SG. rewrite M in Y. cbn [w_log] in Y. destruct Y as [Y|Y]; [|apply (cv_took _ V); auto].
    exfalso. apply (cv_known _ V) in X as (en & X1 & _ & X2). apply (Fr en X1). rewrite X2, <- Y. cbn [en_ct]. apply NC.
  - intros w0 ct0 X. rewrite TT in X. apply (cv_known _ V) in X as (en & X1 & X2 & X3). exists en. rewrite M. repeat split; auto. now right.
  - intros w0. cbv zeta. rewrite M. cbn [w_i]. unfold set. destruct (Bool.eqb_spec w0 who) as [->|]; [|apply (cv_high _ V)].
    rewrite Got, Hig, Rec. apply (cv_high _ V).
  - intros w0. rewrite M. cbn [w_log]. rewrite ofw_cons. cbn [en_from]. destruct (Bool.eqb_spec who w0) as [->|]; [|rewrite app_nil_r; apply (cv_sorted _ V)].
    apply SS_snoc; [apply (cv_sorted _ V)|]. intros en Hen. apply ofw_In in Hen as [Hen Hf].
    assert (LL' : N.of_nat (length (w_log (memory done))) < 2 ^ 32 - 1) by (clear - LL; lia).
    destruct (label_parts (memory done) en I LL' Hen) as (e & i & pv & mn' & h & El & _ & _ & He & Hs & Hi & _).
    pose proof (epoch_reached hmac sha256 x25519 base seal unseal xs sk E B1 B2 BL J1 J2 J3 (memory done) w0 en I Hen) as X.
    pose proof (two_who _ _ _ _ _ _ _ (memory done) w0 I) as (T1 & T2 & T3).
    pose proof (iv_party _ _ _ _ _ _ _ _ I w0) as P. pose proof (pi_parity _ _ _ _ _ _ _ _ _ _ P) as Pa. pose proof (pi_sent _ _ _ _ _ _ _ _ _ _ P) as Se.
    unfold lab_lt, en_epoch, en_index in *. rewrite El in *. cbn [fst snd en_label] in *. unfold ideal_send.
    destruct (i_turn (w_i (memory done) w0)) eqn:Tu; cbn [fst snd].
    + destruct (T1 eq_refl) as [Y1 Y2]. left. lia.
    + destruct (Nat.eq_dec e (i_cur (w_i (memory done) w0))) as [->|Ne]; [right; split; [reflexivity|lia]|]. left.
      assert (e <> S (i_cur (w_i (memory done) w0))). { intros ->. rewrite sender_S, Pa in Hs. rewrite Hf in Hs. destruct w0; discriminate. }
      destruct (i_turn (w_i (memory done) (negb w0))) eqn:Tu2; [destruct (T2 eq_refl); lia|]. destruct (T3 eq_refl eq_refl); lia.
Qed.

(** ** Gaps *)

Lemma filter_sub {A} (f g : A -> bool) l : (forall x, In x l -> f x = true -> g x = true) -> filter f (filter g l) = filter f l.
Proof.
  induction l as [|x l IH]; intros H; [reflexivity|]. cbn. destruct (g x) eqn:G; cbn.
  - rewrite IH; auto. intros y Y. apply H. now right.
  - rewrite IH by (intros y Y; apply H; now right). destruct (f x) eqn:F; [|reflexivity]. rewrite H in G; [discriminate|now left|auto].
Qed.
Lemma SS_filter {A} (R : A -> A -> Prop) f l : StronglySorted R l -> StronglySorted R (filter f l).
Proof.
  induction 1 as [|x l S IH F]; cbn; [constructor|]. destruct (f x); auto. constructor; auto. rewrite Forall_forall in *.
  intros y Y. apply filter_In in Y as [Y _]. auto.
Qed.
Lemma filter_rev_length {A} (f : A -> bool) l : length (filter f (rev l)) = length (filter f l).
Proof. induction l as [|x l IH]; [reflexivity|]. cbn. rewrite filter_app, app_length, IH. cbn. destruct (f x); cbn; lia. Qed.

Lemma index_there done e j : conv done -> small done -> j < cnt (w_log (memory done)) e ->
  exists en, In en (w_log (memory done)) /\ en_epoch en = e /\ en_index en = j /\ en_from en = sender e.
Proof.
  intros V [Fw Sm] J. pose proof (cv_inv _ V) as I. pose proof (cv_len _ V) as Ln. set (log := w_log (memory done)) in *.
  assert (LL : N.of_nat (length log) < 2 ^ 32 - 1) by (unfold few in Fw; lia).
  assert (Fr : forall en, In en log -> en_from en = sender (en_epoch en) /\ en_index en < cnt log (en_epoch en)).
  { intros en H. destruct (label_parts _ _ I LL H) as (e' & i & p & mn & h & El & _ & _ & _ & X & Y & _). unfold en_epoch, en_index. rewrite El. auto. }
  set (F := filter (fun en => Nat.eqb (en_epoch en) e) (ofw (sender e) log)).
  assert (FE : F = filter (fun en => Nat.eqb (en_epoch en) e) (rev log)).
  { apply filter_sub. intros x X Y. apply Nat.eqb_eq in Y. apply in_rev in X. apply Bool.eqb_true_iff. rewrite <- Y. now apply Fr. }
  assert (SF : StronglySorted lab_lt F) by (apply SS_filter, (cv_sorted _ V)).
  assert (EF : forall en, In en F -> In en log /\ en_epoch en = e).
  { intros en X. rewrite FE in X. apply filter_In in X as [X Y]. apply Nat.eqb_eq in Y. rewrite in_rev. auto. }
  assert (ND : NoDup (map en_index F)).
  { clear FE. induction SF as [|x l S IH Fo]; [constructor|]. cbn. constructor.
    - intros X. apply in_map_iff in X as (y & Y1 & Y2). rewrite Forall_forall in Fo. specialize (Fo y Y2).
      destruct (EF x (or_introl eq_refl)) as [_ E1]. destruct (EF y (or_intror Y2)) as [_ E2]. unfold lab_lt in Fo. lia.
    - apply IH. intros en X. apply EF. now right. }
  assert (LF : N.of_nat (length F) = cnt log e) by (rewrite FE, filter_rev_length; reflexivity).
  set (js := map N.of_nat (seq 0 (length F))).
  assert (IJ : incl js (map en_index F)).
  { apply NoDup_length_incl; auto.
    - unfold js. rewrite !map_length, seq_length. lia.
    - intros k X. apply in_map_iff in X as (en & <- & X). destruct (EF en X) as [X1 X2]. destruct (Fr en X1) as [_ X3]. rewrite X2, <- LF in X3.
      unfold js. apply in_map_iff. exists (N.to_nat (en_index en)). split; [apply N2Nat.id|]. apply in_seq. lia. }
  assert (Ij : In j js). { unfold js. apply in_map_iff. exists (N.to_nat j). split; [apply N2Nat.id|]. apply in_seq. lia. }
  apply IJ, in_map_iff in Ij as (en & X1 & X2). destruct (EF en X2) as [X3 X4]. exists en. repeat split; auto. rewrite <- X4. now apply Fr.
Qed.

Lemma gap done w e lo hi (lost : list bytes) : conv done -> small done -> sender e = w -> hi <= cnt (w_log (memory done)) e ->
  (forall en, In en (w_log (memory done)) -> en_from en = w -> en_epoch en = e -> lo <= en_index en < hi -> In (en_ct en) lost) ->
  hi - lo <= N.of_nat (length lost).
Proof.
  intros V Sm Se Hc H. set (log := w_log (memory done)) in *.
  set (idx := fun ct => match find_sent log w ct with Some en => en_index en | None => 0 end).
  set (js := map (fun k => lo + N.of_nat k) (seq 0 (N.to_nat (hi - lo)))).
  assert (L : (length js <= length (map idx lost))%nat).
  { apply NoDup_incl_length.
    - apply FinFun.Injective_map_NoDup; [intros x y; lia|apply seq_NoDup].
    - intros j J. unfold js in J. apply in_map_iff in J as (k & <- & K). apply in_seq in K.
      destruct (index_there done e (lo + N.of_nat k) V Sm) as (en & X1 & X2 & X3 & X4); [fold log; lia|]. fold log in X1. rewrite Se in X4.
      apply in_map_iff. exists (en_ct en). split; [|apply H; auto; lia]. unfold idx.
      pose proof (find_en (memory done) (negb w) en (cv_inv _ V) X1) as Q. rewrite Bool.negb_involutive in Q. unfold log. now rewrite (Q X4). }
  unfold js in L. rewrite !map_length, seq_length in L. lia.
Qed.

Lemma no_refusal done who en (lost : list bytes) : conv done -> small done -> In en (w_log (memory done)) -> en_from en = negb who ->
  snd (ideal_recv (w_i (memory done) who) (en_label en) (en_plain en)) = false ->
  (forall en', In en' (w_log (memory done)) -> en_from en' = negb who -> lab_lt en' en -> taken done who (en_ct en') \/ In (en_ct en') lost) ->
  (forall en', In en' (w_log (memory done)) -> en_from en' = negb who -> taken done who (en_ct en') -> lab_lt en' en \/ en' = en) ->
  (length lost <= 80)%nat -> taken done who (en_ct en).
Proof.
  intros V Sm H Fr Rf Hb Ha Ll. pose proof (cv_inv _ V) as I. pose proof (cv_len _ V) as Ln.
  assert (LL : N.of_nat (length (w_log (memory done))) < 2 ^ 32 - 1) by (destruct Sm as [Fw _]; unfold few in Fw; lia).
  destruct (label_parts _ _ I LL H) as (e & i & pv & mn & h & El & _ & _ & He & Hs & Hi & Hp).
  pose proof (epoch_reached hmac sha256 x25519 base seal unseal xs sk E B1 B2 BL J1 J2 J3 (memory done) who en I H) as Re.
  pose proof (two_who _ _ _ _ _ _ _ (memory done) who I) as (T1 & T2 & T3).
  pose proof (iv_party _ _ _ _ _ _ _ _ I who) as P.
  pose proof (pi_parity _ _ _ _ _ _ _ _ _ _ P) as Pa. pose proof (pi_got _ _ _ _ _ _ _ _ _ _ P) as Pg. pose proof (pi_cur _ _ _ _ _ _ _ _ _ _ P) as Pc.
  destruct (cv_high _ V who) as [H0 H1]. pose proof (cv_got _ V who) as Cg. pose proof (cv_took _ V who) as Ct.
  set (log := w_log (memory done)) in *. set (p := w_i (memory done) who) in *.
  assert (Unt : forall en', In en' log -> en_from en' = negb who -> ~ In (fst (en_label en')) (i_got p) -> lab_lt en' en -> In (en_ct en') lost).
  { intros en' X1 X2 X3 X4. destruct (Hb en' X1 X2 X4) as [X|X]; auto. exfalso. auto. }
  assert (Epo : en_epoch en = e /\ en_index en = i) by (unfold en_epoch, en_index; now rewrite El). destruct Epo as [Ee Ei].
  unfold ideal_recv in Rf. rewrite El in Rf.
  destruct (mem (e, i) (i_got p)) eqn:Me.
  { apply mem_In in Me. destruct (Cg _ Me) as (en' & X1 & X2 & X3 & X4).
    assert (en' = en); [|now subst]. apply (li_label _ _ _ _ _ _ _ _ (iv_log _ _ _ _ _ _ _ _ I)); auto;
    unfold en_epoch, en_index; rewrite X3, El; reflexivity. }
  exfalso. assert (NG : ~ In (e, i) (i_got p)) by (intros X; apply mem_In in X; congruence).
  destruct ((e <? recv_epoch p)%nat || ((e =? recv_epoch p)%nat && (i <? i_high p))) eqn:Lt.
  { clear Rf. destruct (N.eq_dec (i_high p) 0) as [Z|Z].
    - apply H0 in Z as Z1. apply orb_true_iff in Lt as [X|X]; [apply Nat.ltb_lt in X; lia|]. apply andb_true_iff in X as [_ X]. apply N.ltb_lt in X. lia.
    - destruct (Cg _ (H1 Z)) as (en' & X1 & X2 & X3 & X4). destruct (Ha en' X1 X2 X4) as [X|X].
      + unfold lab_lt, en_epoch, en_index in X. rewrite X3, El in X. cbn [fst snd] in X.
        apply orb_true_iff in Lt as [Y|Y]; [apply Nat.ltb_lt in Y; lia|]. apply andb_true_iff in Y as [Y1 Y]. apply N.ltb_lt in Y. apply Nat.eqb_eq in Y1. lia.
      + subst en'. apply NG. apply Ct in X4; auto. now rewrite El in X4. }
  apply orb_false_iff in Lt as [Lt1 Lt2]. apply Nat.ltb_ge in Lt1.
  destruct (e =? recv_epoch p)%nat eqn:Eq.
  - apply Nat.eqb_eq in Eq. destruct (80 <? i - i_high p) eqn:G; [|discriminate]. apply N.ltb_lt in G.
    assert (i - i_high p <= N.of_nat (length lost)); [|lia].
    apply (gap done (negb who) e); auto; [congruence|fold log; lia|]. intros en' X1 X2 X3 X4. apply Unt; auto.
    + intros X. unfold en_epoch, en_index in *. destruct (en_label en') as [[e' i'] p']. cbn [fst snd] in *. subst e'.
      apply Pg in X as (_ & _ & X). unfold known in X. rewrite Eq, Nat.eqb_refl in X. lia.
    + right. lia.
  - apply Nat.eqb_neq in Eq. assert (Up : (recv_epoch p < e)%nat) by lia.
    assert (E2 : (e - 2)%nat = recv_epoch p /\ sender (recv_epoch p) = negb who).
    { unfold recv_epoch in *. unfold sender in *. rewrite Ee in Re.
      destruct (i_turn p) eqn:Tu.
      - destruct (T1 eq_refl) as [Y1 Y2]. rewrite Y2 in Re. lia.
      - assert (Par : Nat.even e = negb (Nat.even (i_cur p))) by (rewrite <- Hs, Fr, Pa; reflexivity).
        assert (Ne : e <> i_cur p) by (intros ->; destruct (Nat.even (i_cur p)); discriminate).
        assert (e = S (i_cur p)) as ->.
        { destruct (i_turn (w_i (memory done) (negb who))) eqn:Tu2; [destruct (T2 eq_refl); lia|]. destruct (T3 eq_refl eq_refl); lia. }
        destruct (i_cur p) as [|c]; [lia|]. split; [lia|]. cbn [pred]. rewrite Nat.even_succ, <- Nat.negb_even in Pa. now destruct (Nat.even c), who. }
    destruct E2 as [E2 E3]. apply orb_false_iff in Lt2 || clear Lt2.
    destruct ((80 <? pv - i_high p) || (80 <? i)) eqn:G; [|discriminate]. apply orb_true_iff in G as [G|G]; apply N.ltb_lt in G.
    + assert (pv - i_high p <= N.of_nat (length lost)); [|lia].
      apply (gap done (negb who) (e - 2)); auto; [congruence|fold log; lia|]. intros en' X1 X2 X3 X4. apply Unt; auto.
      * intros X. unfold en_epoch, en_index in *. destruct (en_label en') as [[e' i'] p']. cbn [fst snd] in *. subst e'.
        apply Pg in X as (_ & _ & X). unfold known in X. rewrite E2, Nat.eqb_refl in X. lia.
      * left. lia.
    + assert (i - 0 <= N.of_nat (length lost)); [|lia].
      apply (gap done (negb who) e); auto; [congruence|fold log; lia|]. intros en' X1 X2 X3 X4. apply Unt; auto.
      * intros X. unfold en_epoch, en_index in *. destruct (en_label en') as [[e' i'] p']. cbn [fst snd] in *. subst e'.
        apply Pg in X as (_ & X & _). lia.
      * right. lia.
Qed.
End Ratchet.
