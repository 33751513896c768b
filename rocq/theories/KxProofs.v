(** Proofs about the symbolic key exchange model. *)
From Coq Require Import List Arith Lia Bool.
Import ListNotations.
From Verif Require Import KxModel.

Lemma is_true x y : is x y = true -> x = y.
Proof. unfold is. destruct (term_eq x y); congruence. Qed.
Lemma is_refl x : is x x = true.
Proof. unfold is. destruct (term_eq x x); congruence. Qed.

(** ** What the parties accept *)

Lemma read_key_some n ek b m : read_key n ek b = Some m -> b = Box ek n m.
Proof.
  destruct b; cbn; try discriminate.
  destruct (is b1 ek) eqn:E1; cbn; [|discriminate].
  destruct (n0 =? n) eqn:E2; [|discriminate].
  intros [= <-]. apply is_true in E1. apply Nat.eqb_eq in E2. now subst.
Qed.
Lemma decap_some sk x k : decap sk x = Some k -> exists c, x = Cph (Pk sk) c /\ k = Key c.
Proof.
  destruct x; cbn; try discriminate. destruct (is x (Pk sk)) eqn:E; [|discriminate].
  apply is_true in E. intros [= <-]. subst. eauto.
Qed.
Lemma recv_proof_some n mk ek parts b d :
  recv_proof n mk ek parts b = Some d -> b = Box ek n (Mac mk parts) /\ d = Mac mk parts.
Proof.
  unfold recv_proof. destruct (read_key n ek b) eqn:E; [|discriminate].
  destruct (is t (Mac mk parts)) eqn:F; [|discriminate]. intros [= <-].
  apply is_true in F. subst. now apply read_key_some in E.
Qed.

Lemma initiate2_some i me b0 b1 b2 m out : initiate2 i me b0 b1 b2 = Some (m, out) ->
  exists c2 te, b0 = Box (Key (R1 i)) 0 (Cph (Pk (CEph i)) c2) /\ b1 = Box (Key c2) 1 te /\
    b2 = Box (Key c2) 2 (Mac (Key (R1 i)) (Pair (Pk (CEph i)) te)) /\
    m = mkImid (Key c2) te (Mac (Key (R1 i)) (Pair (Pk (CEph i)) te)) (Key (R3 i))
          (Mac (Key c2) (Pair (Mac (Key (R1 i)) (Pair (Pk (CEph i)) te)) (Pk (Long me)))) /\
    out = [Box (Key c2) 1 (Cph te (R3 i)); Box (Key (R3 i)) 2 (Pk (Long me));
           Box (Key (R3 i)) 3 (Mac (Key c2) (Pair (Mac (Key (R1 i)) (Pair (Pk (CEph i)) te)) (Pk (Long me))))].
Proof.
  unfold initiate2, recv_cipher, recv_identity.
  destruct (read_key 0 (Key (R1 i)) b0) as [x|] eqn:E0; [|discriminate].
  destruct (decap (CEph i) x) as [k2|] eqn:D; [|discriminate].
  destruct (read_key 1 k2 b1) as [te|] eqn:E1; [|discriminate].
  destruct (recv_proof _ _ _ _ b2) as [sp|] eqn:P; [|discriminate].
  cbn. intros [= <- <-].
  apply read_key_some in E0, E1. apply recv_proof_some in P as [-> ->].
  apply decap_some in D as (c & -> & ->). subst. exists c, te. now repeat split.
Qed.

Lemma initiate3_some me srv m b3 b4 k4 : initiate3 me srv m b3 b4 = Some k4 ->
  exists c4, k4 = Key c4 /\ b3 = Box (i_k3 m) 3 (Cph (Pk (Long me)) c4) /\
    b4 = Box k4 4 (Mac (i_k3 m) (Pair (i_cp m) srv)).
Proof.
  unfold initiate3, recv_cipher.
  destruct (read_key 3 (i_k3 m) b3) as [x|] eqn:E0; [|discriminate].
  destruct (decap (Long me) x) as [k|] eqn:D; [|discriminate].
  destruct (recv_proof _ _ _ _ b4) as [sp|] eqn:P; [|discriminate].
  intros [= <-]. apply read_key_some in E0. apply recv_proof_some in P as [-> _].
  apply decap_some in D as (c & -> & ->). subst. exists c. now repeat split.
Qed.

Lemma respond1_some j me e c1 b0 m out : respond1 j me e c1 b0 = Some (m, out) ->
  exists c te, c1 = Cph (Pk (Long me)) c /\ b0 = Box (Key c) 0 te /\
    m = mkRmid (Key c) te (Mac (Key c) (Pair te (Pk (SEph me e)))) /\
    out = [Box (Key c) 0 (Cph te (R2 j)); Box (Key (R2 j)) 1 (Pk (SEph me e));
           Box (Key (R2 j)) 2 (Mac (Key c) (Pair te (Pk (SEph me e))))].
Proof.
  unfold respond1, recv_cipher, recv_identity.
  destruct (decap (Long me) c1) as [k1|] eqn:D; [|discriminate].
  destruct (read_key 0 k1 b0) as [te|] eqn:E1; [|discriminate].
  cbn. intros [= <- <-].
  apply read_key_some in E1. apply decap_some in D as (c & -> & ->). subst.
  exists c, te. now repeat split.
Qed.

Lemma respond2_some j me e m b1 b2 b3 x out : respond2 j me e m b1 b2 b3 = Some (x, out) ->
  exists c3 id, b1 = Box (Key (R2 j)) 1 (Cph (Pk (SEph me e)) c3) /\ b2 = Box (Key c3) 2 id /\
    b3 = Box (Key c3) 3 (Mac (Key (R2 j)) (Pair (r_sp m) id)) /\
    x = mkRend (Key c3) id (Mac (Key (R2 j)) (Pair (r_sp m) id)) /\
    out = [Box (Key c3) 3 (Cph id (R4 j));
           Box (Key (R4 j)) 4 (Mac (Key c3) (Pair (Mac (Key (R2 j)) (Pair (r_sp m) id)) (Pk (Long me))))].
Proof.
  unfold respond2, recv_cipher, recv_identity.
  destruct (read_key 1 (Key (R2 j)) b1) as [y|] eqn:E0; [|discriminate].
  destruct (decap (SEph me e) y) as [k3|] eqn:D; [|discriminate].
  destruct (read_key 2 k3 b2) as [id|] eqn:E1; [|discriminate].
  destruct (recv_proof _ _ _ _ b3) as [cp|] eqn:P; [|discriminate].
  cbn. intros [= <- <-].
  apply read_key_some in E0, E1. apply recv_proof_some in P as [-> ->].
  apply decap_some in D as (c & -> & ->). subst. exists c, id. now repeat split.
Qed.

(** ** Views of a run *)

Definition cmid (c : crun) : option imid :=
  match c_ph c with CWait1 => None | CWait2 m => Some m | CEnd m _ _ => Some m end.
Definition cend (c : crun) : option (imid * term * list term) :=
  match c_ph c with CEnd m k4 out => Some (m, k4, out) | _ => None end.
Definition smid (s : srun) : rmid := match s_ph s with SWait m => m | SEnd m _ _ => m end.
Definition send (s : srun) : option (rend * list term) :=
  match s_ph s with SEnd _ x out => Some (x, out) | _ => None end.

Lemma cend_cmid c m k4 out : cend c = Some (m, k4, out) -> cmid c = Some m.
Proof. unfold cend, cmid. destruct (c_ph c); try discriminate. now intros [= -> _ _]. Qed.

(** ** The public key a coin was drawn for, and which coins the attacker has *)

Definition target (w : world) (c : coin) : option term :=
  match c with
  | R1 i => match nth_error (cruns w) i with Some c => Some (c_srv c) | None => None end
  | R2 j => match nth_error (sruns w) j with Some s => Some (r_te (smid s)) | None => None end
  | R3 i => match nth_error (cruns w) i with
            | Some c => match cmid c with Some m => Some (i_te m) | None => None end
            | None => None end
  | R4 j => match nth_error (sruns w) j with
            | Some s => match send s with Some (x, _) => Some (r_id x) | None => None end
            | None => None end
  | Ra _ => None
  end.

Definition bad (w : world) (p : term) : Prop :=
  match p with
  | Pk (Long a) => In a (leaked w)
  | Pk (Atk _) => True
  | Pk _ => False
  | _ => True
  end.

Definition coin_pub (w : world) (c : coin) : Prop :=
  match c with Ra _ => True | _ => exists p, target w c = Some p /\ bad w p end.

Definition kp (w : world) (k : term) : Prop := match k with Key c => coin_pub w c | _ => False end.

Definition sec_pub (w : world) (s : secret) : Prop :=
  match s with
  | FromC i _ => exists c m k4 out, nth_error (cruns w) i = Some c /\ cend c = Some (m, k4, out) /\
      kp w (Key (R1 i)) /\ kp w (i_k2 m) /\ kp w (i_k3 m) /\ kp w k4
  | FromS j _ => exists s x out, nth_error (sruns w) j = Some s /\ send s = Some (x, out) /\
      kp w (r_k1 (smid s)) /\ kp w (Key (R2 j)) /\ kp w (r_k3 x) /\ kp w (Key (R4 j))
  end.

(** Proofs made by an honest run and readable by the attacker. *)
Definition okmac (w : world) (k m : term) : Prop :=
  (exists j s, nth_error (sruns w) j = Some s /\ k = r_k1 (smid s) /\
     m = Pair (r_te (smid s)) (Pk (SEph (s_me s) (s_e s))) /\ coin_pub w (R2 j)) \/
  (exists i c im, nth_error (cruns w) i = Some c /\ cmid c = Some im /\ k = i_k2 im /\
     m = Pair (i_sp im) (Pk (Long (c_me c)))) \/
  (exists j s x out, nth_error (sruns w) j = Some s /\ send s = Some (x, out) /\ k = r_k3 x /\
     m = Pair (r_cp x) (Pk (Long (s_me s))) /\ coin_pub w (R4 j)).

(** Boxes made by an honest run. *)
Definition okbox (w : world) (k : term) (n : nat) (m : term) : Prop :=
  (exists j s, nth_error (sruns w) j = Some s /\ n = 2 /\ k = Key (R2 j) /\
     m = Mac (r_k1 (smid s)) (Pair (r_te (smid s)) (Pk (SEph (s_me s) (s_e s))))) \/
  (exists i c im, nth_error (cruns w) i = Some c /\ cmid c = Some im /\ n = 2 /\ k = Key (R3 i) /\
     m = Pk (Long (c_me c))) \/
  (exists j s x out, nth_error (sruns w) j = Some s /\ send s = Some (x, out) /\ n = 4 /\ k = Key (R4 j) /\
     m = Mac (r_k3 x) (Pair (r_cp x) (Pk (Long (s_me s))))) \/
  (exists i c im k4 out n', nth_error (cruns w) i = Some c /\ cend c = Some (im, k4, out) /\
     nth_error out n' = Some m /\ n = 4 + n' /\ k = i_write i im k4) \/
  (exists j s x out n', nth_error (sruns w) j = Some s /\ send s = Some (x, out) /\
     nth_error out n' = Some m /\ n = 5 + n' /\ k = r_write j (smid s) x).

(** An upper bound of what the attacker knows. *)
Fixpoint pub (w : world) (t : term) : Prop :=
  match t with
  | Pk _ | Txt _ => True
  | Sk k => bad w (Pk k)
  | Rnd c | Key c => coin_pub w c
  | Cph p c => coin_pub w c \/ target w c = Some p
  | Pair a b => pub w a /\ pub w b
  | Mac k m => (pub w k /\ pub w m) \/ okmac w k m
  | Box k n m => if reused n then pub w m
                 else (pub w k /\ pub w m) \/ (okbox w k n m /\ (pub w k -> pub w m))
  | Ses _ k1 k2 k3 k4 => pub w k1 /\ pub w k2 /\ pub w k3 /\ pub w k4
  | Sec s => sec_pub w s
  end.

(** ** The invariant *)

Definition agree (i : nat) (c : crun) (m : imid) (j : nat) (s : srun) (x : rend) : Prop :=
  c_srv c = Pk (Long (s_me s)) /\ r_id x = Pk (Long (c_me c)) /\
  r_k1 (smid s) = Key (R1 i) /\ i_k2 m = Key (R2 j) /\ r_k3 x = i_k3 m /\
  r_te (smid s) = Pk (CEph i) /\ i_te m = Pk (SEph (s_me s) (s_e s)).

Definition cform (i : nat) (c : crun) (m : imid) : Prop :=
  i_k3 m = Key (R3 i) /\ i_sp m = Mac (Key (R1 i)) (Pair (Pk (CEph i)) (i_te m)) /\
  i_cp m = Mac (i_k2 m) (Pair (i_sp m) (Pk (Long (c_me c)))) /\ (exists c2, i_k2 m = Key c2).

Definition fin (w : world) (i : nat) (c : crun) (m : imid) (k4 : term) : Prop :=
  exists c4, k4 = Key c4 /\
    (coin_pub w c4 \/
     exists j s x out, nth_error (sruns w) j = Some s /\ send s = Some (x, out) /\ c4 = R4 j /\ agree i c m j s x).

Definition texts (w : world) (own : nat -> secret) (out : list term) : Prop :=
  forall n t, nth_error out n = Some t -> t = Sec (own n) \/ pub w t.

Definition inv_c (w : world) (i : nat) (c : crun) : Prop :=
  (forall m, cmid c = Some m ->
     cform i c m /\ (bad w (c_srv c) \/ exists a e, i_te m = Pk (SEph a e))) /\
  (forall m k4 out, cend c = Some (m, k4, out) -> fin w i c m k4 /\ texts w (FromC i) out).

Definition inv_s (w : world) (j : nat) (s : srun) : Prop :=
  (exists c1, r_k1 (smid s) = Key c1) /\
  r_sp (smid s) = Mac (r_k1 (smid s)) (Pair (r_te (smid s)) (Pk (SEph (s_me s) (s_e s)))) /\
  (forall x out, send s = Some (x, out) ->
     (exists c3, r_k3 x = Key c3) /\ r_cp x = Mac (Key (R2 j)) (Pair (r_sp (smid s)) (r_id x)) /\
     texts w (FromS j) out).

Definition inv (w : world) : Prop :=
  (forall i c, nth_error (cruns w) i = Some c -> inv_c w i c) /\
  (forall j s, nth_error (sruns w) j = Some s -> inv_s w j s) /\
  Forall (pub w) (net w).

(** ** Knowledge is within the bound *)

Lemma bad_nokey w p : (forall k, p <> Pk k) -> bad w p.
Proof. destruct p; cbn; try easy. intro H. now contradiction (H k). Qed.

Lemma coin_target w c p : target w c = Some p -> bad w p -> coin_pub w c.
Proof. destruct c; cbn -[target]; eauto. Qed.

Lemma knows_pub w t : Forall (pub w) (net w) -> knows w t -> pub w t.
Proof.
  intros N K. rewrite Forall_forall in N.
  induction K; cbn; auto; try (now cbn in IHK).
  - destruct IHK1 as [IHK1|IHK1]; [exact IHK1|]. eapply coin_target; eauto.
  - destruct IHK as [IHK|IHK]; [exact IHK|]. eapply coin_target; eauto. now apply bad_nokey.
  - destruct (reused n); auto.
  - cbn in IHK1. destruct (reused n); [exact IHK1|]. destruct IHK1 as [[_ ?]|[_ ?]]; auto.
  - now rewrite H.
  - cbn in IHK. now rewrite H in IHK.
Qed.

(** ** Runs only grow *)

Definition cgrows (c c' : crun) : Prop :=
  c_me c' = c_me c /\ c_srv c' = c_srv c /\
  (forall m, cmid c = Some m -> cmid c' = Some m) /\
  (forall m k4 out, cend c = Some (m, k4, out) -> exists more, cend c' = Some (m, k4, out ++ more)).
Definition sgrows (s s' : srun) : Prop :=
  s_me s' = s_me s /\ s_e s' = s_e s /\ smid s' = smid s /\
  (forall x out, send s = Some (x, out) -> exists more, send s' = Some (x, out ++ more)).
Definition grows (w w' : world) : Prop :=
  (forall i c, nth_error (cruns w) i = Some c -> exists c', nth_error (cruns w') i = Some c' /\ cgrows c c') /\
  (forall j s, nth_error (sruns w) j = Some s -> exists s', nth_error (sruns w') j = Some s' /\ sgrows s s') /\
  incl (leaked w) (leaked w').

Lemma cgrows_refl c : cgrows c c.
Proof. repeat split; auto. intros. exists []. now rewrite app_nil_r. Qed.
Lemma sgrows_refl s : sgrows s s.
Proof. repeat split; auto. intros. exists []. now rewrite app_nil_r. Qed.

Lemma cgrows_trans a b c : cgrows a b -> cgrows b c -> cgrows a c.
Proof.
  intros (A1 & A2 & A3 & A4) (B1 & B2 & B3 & B4). repeat split; try congruence; auto.
  intros m k4 out E. apply A4 in E as (x & E). apply B4 in E as (y & E).
  exists (x ++ y). now rewrite app_assoc.
Qed.
Lemma sgrows_trans a b c : sgrows a b -> sgrows b c -> sgrows a c.
Proof.
  intros (A1 & A2 & A3 & A4) (B1 & B2 & B3 & B4). repeat split; try congruence; auto.
  intros x out E. apply A4 in E as (u & E). apply B4 in E as (y & E).
  exists (u ++ y). now rewrite app_assoc.
Qed.
Lemma grows_refl w : grows w w.
Proof.
  repeat split; [| |apply incl_refl]; intros; eauto using cgrows_refl, sgrows_refl.
Qed.
Lemma grows_trans a b c : grows a b -> grows b c -> grows a c.
Proof.
  intros (A1 & A2 & A3) (B1 & B2 & B3). split; [|split].
  - intros i r E. apply A1 in E as (r' & E & G). apply B1 in E as (r'' & E & G'). eauto using cgrows_trans.
  - intros i r E. apply A2 in E as (r' & E & G). apply B2 in E as (r'' & E & G'). eauto using sgrows_trans.
  - eapply incl_tran; eauto.
Qed.

Ltac parts := repeat match goal with |- _ /\ _ => split end; auto.

Section Grow.
Variables w w' : world.
Hypothesis G : grows w w'.

Lemma g_target c p : target w c = Some p -> target w' c = Some p.
Proof.
  destruct G as (G1 & G2 & _). destruct c; cbn; try easy.
  - destruct (nth_error (cruns w) i) eqn:E; [|easy]. apply G1 in E as (c' & -> & A & B & _). now rewrite B.
  - destruct (nth_error (sruns w) j) eqn:E; [|easy]. apply G2 in E as (c' & -> & A & B & C & _). now rewrite C.
  - destruct (nth_error (cruns w) i) eqn:E; [|easy]. apply G1 in E as (c' & -> & A & B & C & _).
    destruct (cmid c); [|easy]. now rewrite (C _ eq_refl).
  - destruct (nth_error (sruns w) j) eqn:E; [|easy]. apply G2 in E as (c' & -> & A & B & C & D).
    destruct (send s) as [[x out]|]; [|easy]. now destruct (D _ _ eq_refl) as (? & ->).
Qed.
Lemma g_bad p : bad w p -> bad w' p.
Proof. destruct G as (_ & _ & L). destruct p; cbn; try easy. destruct k; auto. Qed.
Lemma g_coin c : coin_pub w c -> coin_pub w' c.
Proof.
  destruct c; cbn -[target]; auto; intros (p & A & B); exists p; split; auto using g_target, g_bad.
Qed.
Lemma g_kp k : kp w k -> kp w' k.
Proof. destruct k; cbn; auto using g_coin. Qed.
Lemma g_okmac k m : okmac w k m -> okmac w' k m.
Proof.
  intros [(j & s & E & K & M & P)|[(i & c & im & E & C & K & M)|(j & s & x & out & E & C & K & M & P)]].
  - left. apply (proj1 (proj2 G)) in E as (s' & E & A1 & A2 & A3 & A4).
    exists j, s'. rewrite A1, A2, A3. parts; auto using g_coin.
  - right; left. apply (proj1 G) in E as (s' & E & A1 & A2 & A3 & A4).
    exists i, s', im. rewrite A1. parts.
  - right; right. apply (proj1 (proj2 G)) in E as (s' & E & A1 & A2 & A3 & A4).
    destruct (A4 _ _ C) as (more & C').
    exists j, s', x, (out ++ more). rewrite A1. parts; auto using g_coin.
Qed.
Lemma g_okbox k n m : okbox w k n m -> okbox w' k n m.
Proof.
  intros [(j & s & E & N & K & M)|[(i & c & im & E & C & N & K & M)|[(j & s & x & out & E & C & N & K & M)|
    [(i & c & im & k4 & out & n' & E & C & O & N & K)|(j & s & x & out & n' & E & C & O & N & K)]]]].
  - left. apply (proj1 (proj2 G)) in E as (s' & E & A1 & A2 & A3 & A4).
    exists j, s'. rewrite A1, A2, A3. parts.
  - right; left. apply (proj1 G) in E as (s' & E & A1 & A2 & A3 & A4).
    exists i, s', im. rewrite A1. parts.
  - right; right; left. apply (proj1 (proj2 G)) in E as (s' & E & A1 & A2 & A3 & A4).
    destruct (A4 _ _ C) as (more & C').
    exists j, s', x, (out ++ more). rewrite A1. parts.
  - right; right; right; left. apply (proj1 G) in E as (s' & E & A1 & A2 & A3 & A4).
    destruct (A4 _ _ _ C) as (more & C').
    exists i, s', im, k4, (out ++ more), n'. repeat split; auto.
    rewrite nth_error_app1; auto. apply nth_error_Some. congruence.
  - right; right; right; right. apply (proj1 (proj2 G)) in E as (s' & E & A1 & A2 & A3 & A4).
    destruct (A4 _ _ C) as (more & C').
    exists j, s', x, (out ++ more), n'. rewrite A3. repeat split; auto.
    rewrite nth_error_app1; auto. apply nth_error_Some. congruence.
Qed.
Lemma g_sec s : sec_pub w s -> sec_pub w' s.
Proof.
  destruct s; cbn -[kp].
  - intros (c & m & k4 & out & E & C & P1 & P2 & P3 & P4).
    apply (proj1 G) in E as (s' & E & A1 & A2 & A3 & A4).
    destruct (A4 _ _ _ C) as (more & C'). exists s', m, k4, (out ++ more).
    repeat split; auto using g_kp.
  - intros (c & m & out & E & C & P1 & P2 & P3 & P4).
    apply (proj1 (proj2 G)) in E as (s' & E & A1 & A2 & A3 & A4).
    destruct (A4 _ _ C) as (more & C'). exists s', m, (out ++ more).
    rewrite A3. repeat split; auto using g_kp.
Qed.
Lemma g_fin i c m k4 : fin w i c m k4 -> fin w' i c m k4.
Proof.
  intros (c4 & -> & [P|(j & s & x & out & E & C & -> & A)]).
  - exists c4. parts; auto using g_coin.
  - exists (R4 j). split; [reflexivity|]. right.
    apply (proj1 (proj2 G)) in E as (s' & E & A1 & A2 & A3 & A4).
    destruct (A4 _ _ C) as (more & C'). exists j, s', x, (out ++ more).
    repeat (split; [now auto|]). unfold agree in *. now rewrite A1, A2, A3.
Qed.
End Grow.

(** When all four keys of a finished run are known, so are its secret texts. *)
Lemma ses_kp w k1 k2 k3 k4 f c1 c2 c3 c4 : k1 = Key c1 -> k2 = Key c2 -> k3 = Key c3 -> k4 = Key c4 ->
  pub w (Ses f k1 k2 k3 k4) -> kp w k1 /\ kp w k2 /\ kp w k3 /\ kp w k4.
Proof. now intros -> -> -> ->. Qed.

(** The boundary of a box made by an honest run: whoever has the key has the
    content. *)
Lemma okbox_open w k n m (C : forall i c, nth_error (cruns w) i = Some c -> inv_c w i c)
  (S : forall j s, nth_error (sruns w) j = Some s -> inv_s w j s) :
  okbox w k n m -> pub w k -> pub w m.
Proof.
  intros [(j & s & E & -> & -> & ->)|[(i & c & im & E & D & -> & -> & ->)|[(j & s & x & out & E & D & -> & -> & ->)|
    [(i & c & im & k4 & out & n' & E & D & O & -> & ->)|(j & s & x & out & n' & E & D & O & -> & ->)]]]] P.
  - right. left. exists j, s. parts.
  - exact I.
  - right. right. right. exists j, s, x, out. parts.
  - destruct (C _ _ E) as [C1 C2]. destruct (C1 _ (cend_cmid _ _ _ _ D)) as [(F1 & _ & _ & c2 & F2) _].
    destruct (C2 _ _ _ D) as [(c4 & F4 & _) T]. destruct (T _ _ O) as [->|T']; [|exact T'].
    destruct (ses_kp w _ _ _ _ _ _ _ _ _ eq_refl F2 F1 F4 P) as (Q1 & Q2 & Q3 & Q4).
    exists c, im, k4, out. parts.
  - destruct (S _ _ E) as [(c1 & S1) [S2 S3]]. destruct (S3 _ _ D) as [(c3 & F3) [_ T]].
    destruct (T _ _ O) as [->|T']; [|exact T'].
    destruct (ses_kp w _ _ _ _ _ _ _ _ _ S1 eq_refl F3 eq_refl P) as (Q1 & Q2 & Q3 & Q4).
    exists s, x, out. parts.
Qed.

(** The bound grows with the runs. *)
Lemma g_pub w w' : grows w w' ->
  (forall i c, nth_error (cruns w) i = Some c -> inv_c w i c) ->
  (forall j s, nth_error (sruns w) j = Some s -> inv_s w j s) ->
  forall t, pub w t -> pub w' t.
Proof.
  intros G C S. induction t; cbn; auto.
  - apply (g_bad _ _ G (Pk k)).
  - apply (g_coin _ _ G).
  - apply (g_coin _ _ G).
  - intros [P|P]; [left; now apply (g_coin _ _ G)|right; now apply (g_target _ _ G)].
  - destruct (reused n) eqn:R; auto. intros [[P Q]|[O Q]]; [left; auto|].
    right. split; [now apply (g_okbox _ _ G)|]. intro P'.
    destruct O as [(j & s & E & -> & -> & ->)|[(i & c & im & E & D & -> & -> & ->)|[(j & s & x & out & E & D & -> & -> & ->)|
      [(i & c & im & k4 & out & n' & E & D & O & -> & ->)|(j & s & x & out & n' & E & D & O & -> & ->)]]]].
    + right. left. apply (proj1 (proj2 G)) in E as (s' & E & A1 & A2 & A3 & A4).
      exists j, s'. rewrite A1, A2, A3. parts.
    + exact I.
    + right. right. right. apply (proj1 (proj2 G)) in E as (s' & E & A1 & A2 & A3 & A4).
      destruct (A4 _ _ D) as (more & D').
      exists j, s', x, (out ++ more). rewrite A1. parts.
    + destruct (C _ _ E) as [C1 C2]. destruct (C1 _ (cend_cmid _ _ _ _ D)) as [(F1 & _ & _ & c2 & F2) _].
      destruct (C2 _ _ _ D) as [(c4 & F4 & _) T]. destruct (T _ _ O) as [->|T']; [|auto].
      destruct (ses_kp w' _ _ _ _ _ _ _ _ _ eq_refl F2 F1 F4 P') as (Q1 & Q2 & Q3 & Q4).
      apply (proj1 G) in E as (s' & E & A1 & A2 & A3 & A4). destruct (A4 _ _ _ D) as (more & D').
      exists s', im, k4, (out ++ more). parts.
    + destruct (S _ _ E) as [(c1 & S1) [S2 S3]]. destruct (S3 _ _ D) as [(c3 & F3) [_ T]].
      destruct (T _ _ O) as [->|T']; [|auto].
      destruct (ses_kp w' _ _ _ _ _ _ _ _ _ S1 eq_refl F3 eq_refl P') as (Q1 & Q2 & Q3 & Q4).
      apply (proj1 (proj2 G)) in E as (s' & E & A1 & A2 & A3 & A4). destruct (A4 _ _ D) as (more & D').
      exists s', x, (out ++ more). rewrite A3. parts.
  - intros [[P Q]|O]; [left; auto|right; now apply (g_okmac _ _ G)].
  - intuition.
  - intuition.
  - apply (g_sec _ _ G).
Qed.

Lemma g_inv_c w w' i c : grows w w' -> inv w -> inv_c w i c -> inv_c w' i c.
Proof.
  intros G (C & S & _) [H1 H2]. split.
  - intros m E. destruct (H1 _ E) as [F [B|B]]; split; auto. left. now apply (g_bad _ _ G).
  - intros m k4 out E. destruct (H2 _ _ _ E) as [F T]. split; [now apply (g_fin _ _ G)|].
    intros n t O. destruct (T _ _ O); auto. right. eapply g_pub; eauto.
Qed.
Lemma g_inv_s w w' j s : grows w w' -> inv w -> inv_s w j s -> inv_s w' j s.
Proof.
  intros G (C & S & _) (H1 & H2 & H3). split; [exact H1|split; [exact H2|]].
  intros x out E. destruct (H3 _ _ E) as (F1 & F2 & T). split; [exact F1|split; [exact F2|]].
  intros n t O. destruct (T _ _ O); auto. right. eapply g_pub; eauto.
Qed.

(** ** Lists *)

Lemma nth_upd_eq {A} (l : list A) i x y : nth_error l i = Some y -> nth_error (upd l i x) i = Some x.
Proof. revert i; induction l; intros [|i]; cbn; try discriminate; auto. Qed.
Lemma nth_upd_ne {A} (l : list A) i j x : i <> j -> nth_error (upd l i x) j = nth_error l j.
Proof. revert i j; induction l; intros [|i] [|j] H; cbn; auto; try congruence. Qed.
Lemma nth_upd_cases {A} (l : list A) i x j y : nth_error (upd l i x) j = Some y ->
  (j = i /\ y = x /\ exists z, nth_error l i = Some z) \/ (j <> i /\ nth_error l j = Some y).
Proof.
  destruct (Nat.eq_dec j i) as [->|H].
  - destruct (nth_error l i) eqn:E.
    + rewrite (nth_upd_eq _ _ _ _ E). intros [= <-]. left. eauto.
    + assert (length l <= i) by now apply nth_error_None.
      intro F. exfalso. clear -F H. revert i F H. induction l; intros [|i]; cbn; try discriminate.
      * intros; lia.
      * intros F H. apply (IHl i F). lia.
  - rewrite nth_upd_ne by congruence. auto.
Qed.
Lemma nth_snoc_cases {A} (l : list A) x j y : nth_error (l ++ [x]) j = Some y ->
  (j = length l /\ y = x) \/ nth_error l j = Some y.
Proof.
  destruct (Nat.lt_ge_cases j (length l)) as [H|H].
  - rewrite nth_error_app1 by assumption. auto.
  - rewrite nth_error_app2 by assumption. destruct (j - length l) eqn:E; cbn.
    + intros [= <-]. left. split; [lia|reflexivity].
    + now destruct n.
Qed.
Lemma nth_snoc_old {A} (l : list A) x j y : nth_error l j = Some y -> nth_error (l ++ [x]) j = Some y.
Proof. intro H. rewrite nth_error_app1; auto. apply nth_error_Some. congruence. Qed.
Lemma nth_snoc_new {A} (l : list A) x : nth_error (l ++ [x]) (length l) = Some x.
Proof. rewrite nth_error_app2 by lia. now rewrite Nat.sub_diag. Qed.

Lemma grows_set_c w i c c' out : nth_error (cruns w) i = Some c -> cgrows c c' -> grows w (set_c w i c' out).
Proof.
  intros E H. split; [|split; [|apply incl_refl]].
  - intros k r F. cbn. destruct (Nat.eq_dec k i) as [->|Hn].
    + rewrite (nth_upd_eq _ _ _ _ E). assert (r = c) by congruence. subst. eauto.
    + rewrite nth_upd_ne by congruence. eauto using cgrows_refl.
  - cbn. eauto using sgrows_refl.
Qed.
Lemma grows_set_s w j s s' out : nth_error (sruns w) j = Some s -> sgrows s s' -> grows w (set_s w j s' out).
Proof.
  intros E H. split; [|split; [|apply incl_refl]].
  - cbn. eauto using cgrows_refl.
  - intros k r F. cbn. destruct (Nat.eq_dec k j) as [->|Hn].
    + rewrite (nth_upd_eq _ _ _ _ E). assert (r = s) by congruence. subst. eauto.
    + rewrite nth_upd_ne by congruence. eauto using sgrows_refl.
Qed.

(** ** Every event keeps the invariant *)

(** One client run changes. *)
Lemma inv_set_c w i c c' out : inv w -> nth_error (cruns w) i = Some c -> cgrows c c' ->
  inv_c (set_c w i c' out) i c' -> Forall (pub (set_c w i c' out)) out -> inv (set_c w i c' out).
Proof.
  intros V E H N O. assert (G := grows_set_c w i c c' out E H). pose proof V as (C & S & P).
  split; [|split].
  - intros k r F. cbn in F. apply nth_upd_cases in F as [(-> & -> & _)|(_ & F)]; [exact N|].
    eapply g_inv_c; eauto.
  - intros k r F. cbn in F. eapply g_inv_s; eauto.
  - cbn [net set_c]. apply Forall_app. split; [|exact O].
    eapply Forall_impl; [|exact P]. intros t. now apply g_pub.
Qed.
Lemma inv_set_s w j s s' out : inv w -> nth_error (sruns w) j = Some s -> sgrows s s' ->
  inv_s (set_s w j s' out) j s' -> Forall (pub (set_s w j s' out)) out -> inv (set_s w j s' out).
Proof.
  intros V E H N O. assert (G := grows_set_s w j s s' out E H). pose proof V as (C & S & P).
  split; [|split].
  - intros k r F. cbn in F. eapply g_inv_c; eauto.
  - intros k r F. cbn in F. apply nth_upd_cases in F as [(-> & -> & _)|(_ & F)]; [exact N|].
    eapply g_inv_s; eauto.
  - cbn [net set_s]. apply Forall_app. split; [|exact O].
    eapply Forall_impl; [|exact P]. intros t. now apply g_pub.
Qed.

Ltac each := repeat match goal with |- Forall _ [] => apply Forall_nil | |- Forall _ (_ :: _) => apply Forall_cons end.

Lemma leak_inv w a : inv w -> inv (mkWorld (cruns w) (sruns w) (net w) (a :: leaked w)).
Proof.
  intro V. pose proof V as (C & S & P).
  assert (G : grows w (mkWorld (cruns w) (sruns w) (net w) (a :: leaked w))).
  { split; [|split]; cbn; eauto using cgrows_refl, sgrows_refl. now apply incl_tl, incl_refl. }
  split; [|split]; cbn.
  - intros i c E. eapply g_inv_c; eauto.
  - intros i c E. eapply g_inv_s; eauto.
  - eapply Forall_impl; [|exact P]. intros t. now apply g_pub.
Qed.

Lemma cstart_inv w me srv : inv w ->
  grows w (mkWorld (cruns w ++ [mkCrun me srv CWait1]) (sruns w) (net w ++ initiate1 (length (cruns w)) srv) (leaked w)) /\
  inv (mkWorld (cruns w ++ [mkCrun me srv CWait1]) (sruns w) (net w ++ initiate1 (length (cruns w)) srv) (leaked w)).
Proof.
  intro V. pose proof V as (C & S & P). set (w' := mkWorld _ _ _ _).
  assert (G : grows w w').
  { split; [|split]; cbn; eauto using cgrows_refl, sgrows_refl, incl_refl.
    intros i c E. exists c. split; [now apply nth_snoc_old|apply cgrows_refl]. }
  split; [exact G|]. split; [|split].
  - intros i c E. cbn in E. apply nth_snoc_cases in E as [(-> & ->)|E]; [|eapply g_inv_c; eauto].
    split; intros; discriminate.
  - intros i c E. eapply g_inv_s; eauto.
  - cbn [net w']. apply Forall_app. split.
    + eapply Forall_impl; [|exact P]. intros t. now apply g_pub.
    + unfold initiate1, gen_and_send, write_key. each.
      * right. cbn. now rewrite nth_snoc_new.
      * exact I.
Qed.

Lemma sstart_inv w me e c1 b0 m out : inv w -> respond1 (length (sruns w)) me e c1 b0 = Some (m, out) ->
  grows w (mkWorld (cruns w) (sruns w ++ [mkSrun me e (SWait m)]) (net w ++ out) (leaked w)) /\
  inv (mkWorld (cruns w) (sruns w ++ [mkSrun me e (SWait m)]) (net w ++ out) (leaked w)).
Proof.
  intros V R. pose proof V as (C & S & P). set (w' := mkWorld _ _ _ _).
  assert (G : grows w w').
  { split; [|split]; cbn; eauto using cgrows_refl, sgrows_refl, incl_refl.
    intros i c E. exists c. split; [now apply nth_snoc_old|apply sgrows_refl]. }
  split; [exact G|]. apply respond1_some in R as (c & te & -> & -> & -> & ->). split; [|split].
  - intros i r E. eapply g_inv_c; eauto.
  - intros i r E. cbn in E. apply nth_snoc_cases in E as [(-> & ->)|E]; [|eapply g_inv_s; eauto].
    split; [|split]; cbn; eauto. intros; discriminate.
  - cbn [net w']. apply Forall_app. split.
    + eapply Forall_impl; [|exact P]. intros t. now apply g_pub.
    + assert (L : nth_error (sruns w') (length (sruns w)) = Some (mkSrun me e (SWait (mkRmid (Key c) te (Mac (Key c) (Pair te (Pk (SEph me e)))))))) by (cbn; apply nth_snoc_new).
      each.
      * cbn -[target]. right. cbn -[w']. now rewrite L.
      * exact I.
      * cbn -[w' coin_pub okmac okbox]. right. split.
        -- left. exists (length (sruns w)). eexists. split; [exact L|]. now repeat split.
        -- intro K. right. left. exists (length (sruns w)). eexists. split; [exact L|]. now repeat split.
Qed.

(** What the attacker can hold of a server's first proof. *)
Lemma first_proof w i te : inv w -> ~ coin_pub w (R1 i) ->
  forall k2, pub w (Box k2 2 (Mac (Key (R1 i)) (Pair (Pk (CEph i)) te))) ->
  exists j s, nth_error (sruns w) j = Some s /\ r_k1 (smid s) = Key (R1 i) /\
    r_te (smid s) = Pk (CEph i) /\ te = Pk (SEph (s_me s) (s_e s)).
Proof.
  intros (C & S & P) N k2 B. cbn -[coin_pub okmac okbox] in B.
  assert (M : okmac w (Key (R1 i)) (Pair (Pk (CEph i)) te) ->
    exists j s, nth_error (sruns w) j = Some s /\ r_k1 (smid s) = Key (R1 i) /\
    r_te (smid s) = Pk (CEph i) /\ te = Pk (SEph (s_me s) (s_e s))).
  { intros [(j & s & E & K & M & _)|[(k & c & im & E & D & K & M)|(j & s & x & out & E & D & K & M & _)]].
    - injection M as M1 M2. exists j, s. parts.
    - destruct (C _ _ E) as [C1 _]. destruct (C1 _ D) as [(_ & F & _) _]. rewrite F in M. discriminate.
    - destruct (S _ _ E) as (_ & _ & S3). destruct (S3 _ _ D) as (_ & F & _). rewrite F in M. discriminate. }
  destruct B as [[_ [[B _]|B]]|[B _]]; [contradiction|now apply M|].
  destruct B as [(j & s & E & _ & _ & F)|[(k & c & im & E & D & _ & _ & F)|[(j & s & x & out & E & D & F & _)|
    [(k & c & im & k4 & out & n' & E & D & O & F & _)|(j & s & x & out & n' & E & D & O & F & _)]]]];
    try discriminate F.
  injection F as F1 F2 F3. exists j, s. parts.
Qed.

(** And of its second. *)
Lemma second_proof w i c m k4 : inv w -> nth_error (cruns w) i = Some c -> cmid c = Some m ->
  okmac w (i_k3 m) (Pair (i_cp m) (c_srv c)) \/ okbox w k4 4 (Mac (i_k3 m) (Pair (i_cp m) (c_srv c))) ->
  (exists a, c_srv c = Pk (Long a)) \/ okbox w k4 4 (Mac (i_k3 m) (Pair (i_cp m) (c_srv c))) ->
  (exists c4, k4 = Key c4) ->
  exists j s x out, nth_error (sruns w) j = Some s /\ send s = Some (x, out) /\ agree i c m j s x /\
    (coin_pub w (R4 j) \/ k4 = Key (R4 j)).
Proof.
  intros (C & S & P) E D H HL (c4 & K4). destruct (C _ _ E) as [C1 _].
  destruct (C1 _ D) as [(F1 & F2 & F3 & c2 & F4) _].
  assert (A : forall j s x out, nth_error (sruns w) j = Some s -> send s = Some (x, out) ->
    i_k3 m = r_k3 x -> Pair (i_cp m) (c_srv c) = Pair (r_cp x) (Pk (Long (s_me s))) -> agree i c m j s x).
  { intros j s x out Ej Dj K M. destruct (S _ _ Ej) as (_ & S2 & S3). destruct (S3 _ _ Dj) as (_ & F & _).
    injection M as M1 M2. rewrite F3, F, F2, S2 in M1. injection M1 as M1 M3 M4 M5 M6.
    unfold agree. repeat split; congruence. }
  destruct H as [[(j & s & Ej & K & M & _)|[(k & c' & im & Ej & Dj & K & M)|(j & s & x & out & Ej & Dj & K & M & Q)]]|H].
  - exfalso. injection M as M1 M2. destruct HL as [(a & HL)|HL]; [congruence|].
    destruct HL as [(j' & s' & _ & F & _)|[(k & c' & im & _ & _ & F & _)|[(j' & s' & x & out & Ej' & Dj' & _ & _ & F)|
      [(k & c' & im & k4' & out & n' & _ & _ & _ & _ & F)|(j' & s' & x & out & n' & _ & _ & _ & _ & F)]]]];
      try discriminate F; try (unfold i_write, r_write in F; congruence).
  - exfalso. injection M as M1 M2. destruct (C _ _ Ej) as [C1' _].
    destruct (C1' _ Dj) as [(G1 & G2 & G3 & _) _]. rewrite F3, F2, G2 in M1. discriminate.
  - exists j, s, x, out. split; [exact Ej|split; [exact Dj|split; [|left; exact Q]]]. eapply A; eauto.
  - destruct H as [(j' & s' & _ & F & _)|[(k & c' & im & _ & _ & F & _)|[(j' & s' & x & out & Ej' & Dj' & _ & F0 & F)|
      [(k & c' & im & k4' & out & n' & _ & _ & _ & _ & F)|(j' & s' & x & out & n' & _ & _ & _ & _ & F)]]]];
      try discriminate F; try (unfold i_write, r_write in F; congruence).
    injection F as G1 G2 G3. exists j', s', x, out. split; [exact Ej'|split; [exact Dj'|split; [|right; exact F0]]].
    eapply A; eauto. congruence.
Qed.

Lemma cnext_inv w i me srv b0 b1 b2 m out : inv w -> nth_error (cruns w) i = Some (mkCrun me srv CWait1) ->
  knows w b2 -> initiate2 i me b0 b1 b2 = Some (m, out) ->
  grows w (set_c w i (mkCrun me srv (CWait2 m)) out) /\ inv (set_c w i (mkCrun me srv (CWait2 m)) out).
Proof.
  intros V E K R. pose proof V as (C & S & P). apply initiate2_some in R as (c2 & te & -> & -> & -> & Hm & Ho).
  assert (Gc : cgrows (mkCrun me srv CWait1) (mkCrun me srv (CWait2 m))) by (repeat split; intros; discriminate).
  set (w' := set_c _ _ _ _). assert (G : grows w w') by now apply (grows_set_c _ _ _ _ _ E).
  split; [exact G|]. assert (E' : nth_error (cruns w') i = Some (mkCrun me srv (CWait2 m))) by (cbn; eapply nth_upd_eq; eauto).
  apply (inv_set_c w i _ _ _ V E Gc).
  - split; [|intros; discriminate]. intros m' [= <-]. split; [subst m; repeat split; now exists c2|].
    cbn [c_srv]. apply knows_pub in K; [|exact P].
    assert (D : bad w srv \/ ~ bad w srv).
    { destruct srv; cbn; auto. destruct k; cbn; auto. destruct (in_dec Nat.eq_dec a (leaked w)); auto. }
    destruct D as [D|D]; [left; now apply (g_bad _ _ G)|right].
    assert (N : ~ coin_pub w (R1 i)).
    { cbn -[target]. intros (p & T & B). cbn in T. rewrite E in T. injection T as <-. now apply D. }
    destruct (first_proof w i te V N _ K) as (j & s & _ & _ & _ & Ht). subst m. cbn. eauto.
  - subst out. fold w'. each.
    + cbn -[w' target]. right. cbn -[w']. rewrite E'. subst m. reflexivity.
    + cbn -[w' coin_pub okmac okbox]. right. split; [|exact (fun _ => I)].
      right. left. exists i. eexists. exists m. split; [exact E'|]. now repeat split.
    + cbn -[w' coin_pub okmac okbox]. right. right. left. exists i. eexists. exists m. split; [exact E'|].
      subst m. now repeat split.
Qed.

Lemma cfinish_inv w i me srv m b3 b4 k4 : inv w -> nth_error (cruns w) i = Some (mkCrun me srv (CWait2 m)) ->
  knows w b4 -> initiate3 me srv m b3 b4 = Some k4 ->
  grows w (set_c w i (mkCrun me srv (CEnd m k4 [])) []) /\ inv (set_c w i (mkCrun me srv (CEnd m k4 [])) []).
Proof.
  intros V E K R. pose proof V as (C & S & P).
  apply initiate3_some in R as (c4 & -> & -> & ->).
  assert (Gc : cgrows (mkCrun me srv (CWait2 m)) (mkCrun me srv (CEnd m (Key c4) []))).
  { split; [|split; [|split]]; auto; intros; discriminate. }
  set (w' := set_c _ _ _ _). assert (G : grows w w') by now apply (grows_set_c _ _ _ _ _ E).
  split; [exact G|]. apply (inv_set_c w i _ _ _ V E Gc); [|constructor]. fold w'.
  destruct (C _ _ E) as [C1 _]. destruct (C1 m eq_refl) as [F B].
  split.
  - intros m' [= <-]. split; [exact F|]. destruct B as [B|B]; [left; now apply (g_bad _ _ G)|now right].
  - intros m' k out [= <- <- <-]. split; [|intros [|n] t; discriminate].
    apply (g_fin _ _ G). exists c4. split; [reflexivity|].
    apply knows_pub in K; [|exact P]. cbn -[coin_pub okmac okbox] in K.
    destruct K as [[K _]|[K _]]; [now left|].
    destruct (second_proof w i (mkCrun me srv (CWait2 m)) m (Key c4) V E eq_refl (or_intror K) (or_intror K) (ex_intro _ c4 eq_refl))
      as (j & s & x & out & Ej & Dj & A & Q).
    destruct K as [(j' & s' & _ & Hn & _)|[(k & c' & im & _ & _ & Hn & _)|[(j' & s' & x' & out' & Ej' & Dj' & _ & F0 & F')|
      [(k & c' & im & k4' & out' & n' & _ & _ & _ & _ & F')|(j' & s' & x' & out' & n' & _ & _ & _ & _ & F')]]]];
      try discriminate; try (unfold i_write, r_write in F'; congruence).
    injection F0 as ->. right. exists j', s', x', out'. repeat (split; [now auto|]).
    (* the same run *)
    destruct (C1 m eq_refl) as [(F1 & F2 & F3 & c2 & F4) _].
    destruct (S _ _ Ej') as (_ & S2 & S3). destruct (S3 _ _ Dj') as (_ & F5 & _).
    injection F' as M0 M1 M2. rewrite F3, F5, F2, S2 in M1. injection M1 as M1 M3 M4 M5 M6.
    unfold agree. cbn in *. repeat split; congruence.
Qed.

Lemma sfinish_inv w j me e m b1 b2 b3 x out : inv w -> nth_error (sruns w) j = Some (mkSrun me e (SWait m)) ->
  respond2 j me e m b1 b2 b3 = Some (x, out) ->
  grows w (set_s w j (mkSrun me e (SEnd m x [])) out) /\ inv (set_s w j (mkSrun me e (SEnd m x [])) out).
Proof.
  intros V E R. pose proof V as (C & S & P).
  apply respond2_some in R as (c3 & id & -> & -> & -> & Hx & Ho).
  assert (Gs : sgrows (mkSrun me e (SWait m)) (mkSrun me e (SEnd m x []))).
  { split; [|split; [|split]]; auto; intros; discriminate. }
  set (w' := set_s _ _ _ _). assert (G : grows w w') by now apply (grows_set_s _ _ _ _ _ E).
  split; [exact G|]. assert (E' : nth_error (sruns w') j = Some (mkSrun me e (SEnd m x []))) by (cbn; eapply nth_upd_eq; eauto).
  destruct (S _ _ E) as (S1 & S2 & _). apply (inv_set_s w j _ _ _ V E Gs).
  - split; [exact S1|split; [exact S2|]]. intros x' o [= <- <-]. subst x.
    split; [now exists c3|split; [reflexivity|]]. intros [|n] t; discriminate.
  - subst out. fold w'. each.
    + cbn -[w' target]. right. cbn -[w']. rewrite E'. subst x. reflexivity.
    + cbn -[w' coin_pub okmac okbox]. right. split.
      * right. right. left. exists j. eexists. exists x, []. split; [exact E'|]. subst x. now repeat split.
      * intro K. right. right. right. exists j. eexists. exists x, []. split; [exact E'|]. subst x. now repeat split.
Qed.

Lemma cwrite_inv w i text w' : inv w -> c_write w i text = Some w' ->
  (forall n, text n = Sec (FromC i n) \/ pub w (text n)) -> grows w w' /\ inv w'.
Proof.
  intros V R T. unfold c_write in R.
  destruct (nth_error (cruns w) i) as [[me srv [|m|m k4 out]]|] eqn:E; try discriminate R.
  injection R as <-. set (t := text (length out)). set (c' := mkCrun _ _ _).
  pose proof V as (C & S & P). destruct (C _ _ E) as [C1 C2]. destruct (C2 _ _ _ eq_refl) as [F Tx].
  assert (Gc : cgrows (mkCrun me srv (CEnd m k4 out)) c').
  { split; [|split; [|split]]; auto. intros ? ? ? [= <- <- <-]. now exists [t]. }
  set (w' := set_c _ _ _ _). assert (G : grows w w') by now apply (grows_set_c _ _ _ _ _ E).
  split; [exact G|].
  assert (E' : nth_error (cruns w') i = Some c') by (cbn; eapply nth_upd_eq; eauto).
  assert (I' : inv_c w' i c').
  { split.
    - intros m' [= <-]. destruct (C1 m eq_refl) as [F' B]. split; [exact F'|].
      destruct B as [B|B]; [left; now apply (g_bad _ _ G)|now right].
    - intros ? ? ? [= <- <- <-]. split; [now apply (g_fin _ _ G)|].
      intros n u O. apply nth_snoc_cases in O as [(-> & ->)|O].
      + destruct (T (length out)) as [H|H]; [now left|right]. eapply g_pub; eauto.
      + destruct (Tx _ _ O); auto. right. eapply g_pub; eauto. }
  apply (inv_set_c w i _ _ _ V E Gc I'). fold w'. each.
  unfold write_key. fold t.
  change ((pub w' (i_write i m k4) /\ pub w' t) \/
          (okbox w' (i_write i m k4) (4 + length out) t /\ (pub w' (i_write i m k4) -> pub w' t))). right.
  assert (O : okbox w' (i_write i m k4) (4 + length out) t).
  { right. right. right. left. exists i, c', m, k4, (out ++ [t]), (length out).
    repeat (split; [now auto|]). split; [apply nth_snoc_new|]. now split. }
  split; [exact O|]. intro Q. refine (okbox_open w' _ _ _ _ _ O Q).
  - intros k r F'. cbn in F'. apply nth_upd_cases in F' as [(-> & -> & _)|(_ & F')]; [exact I'|eapply g_inv_c; eauto].
  - intros k r F'. eapply g_inv_s; eauto.
Qed.

Lemma swrite_inv w j text w' : inv w -> s_write w j text = Some w' ->
  (forall n, text n = Sec (FromS j n) \/ pub w (text n)) -> grows w w' /\ inv w'.
Proof.
  intros V R T. unfold s_write in R.
  destruct (nth_error (sruns w) j) as [[me e [m|m x out]]|] eqn:E; try discriminate R.
  injection R as <-. set (t := text (length out)). set (s' := mkSrun _ _ _).
  pose proof V as (C & S & P). destruct (S _ _ E) as (S1 & S2 & S3). destruct (S3 _ _ eq_refl) as (F1 & F2 & Tx).
  assert (Gc : sgrows (mkSrun me e (SEnd m x out)) s').
  { split; [|split; [|split]]; auto. intros ? ? [= <- <-]. now exists [t]. }
  set (w' := set_s _ _ _ _). assert (G : grows w w') by now apply (grows_set_s _ _ _ _ _ E).
  split; [exact G|].
  assert (E' : nth_error (sruns w') j = Some s') by (cbn; eapply nth_upd_eq; eauto).
  assert (I' : inv_s w' j s').
  { split; [exact S1|split; [exact S2|]].
    intros ? ? [= <- <-]. split; [exact F1|split; [exact F2|]].
    intros n u O. apply nth_snoc_cases in O as [(-> & ->)|O].
    + destruct (T (length out)) as [H|H]; [now left|right]. eapply g_pub; eauto.
    + destruct (Tx _ _ O); auto. right. eapply g_pub; eauto. }
  apply (inv_set_s w j _ _ _ V E Gc I'). fold w'. each.
  unfold write_key. fold t.
  change ((pub w' (r_write j m x) /\ pub w' t) \/
          (okbox w' (r_write j m x) (5 + length out) t /\ (pub w' (r_write j m x) -> pub w' t))). right.
  assert (O : okbox w' (r_write j m x) (5 + length out) t).
  { right. right. right. right. exists j, s', x, (out ++ [t]), (length out).
    repeat (split; [now auto|]). split; [apply nth_snoc_new|]. now split. }
  split; [exact O|]. intro Q. refine (okbox_open w' _ _ _ _ _ O Q).
  - intros k r F'. eapply g_inv_c; eauto.
  - intros k r F'. cbn in F'. apply nth_upd_cases in F' as [(-> & -> & _)|(_ & F')]; [exact I'|eapply g_inv_s; eauto].
Qed.

Lemma step_inv w e w' : inv w -> step w e w' -> grows w w' /\ inv w'.
Proof.
  intros V [K R]. pose proof V as (C & S & P).
  destruct e as [a|me srv|i b0 b1 b2|i b3 b4|me ep c1 b0|j b1 b2 b3|i m|i|j m|j]; cbn in K, R.
  - injection R as <-. split; [|now apply leak_inv].
    split; [|split]; cbn; eauto using cgrows_refl, sgrows_refl. now apply incl_tl, incl_refl.
  - injection R as <-. now apply cstart_inv.
  - destruct (nth_error (cruns w) i) as [[me srv [|m|]]|] eqn:E; try discriminate R.
    destruct (initiate2 i me b0 b1 b2) as [[m out]|] eqn:F; [|discriminate]. injection R as <-.
    inversion K as [|? ? _ K2]; subst. inversion K2 as [|? ? _ K3]; subst. inversion K3 as [|? ? K4 _]; subst.
    eapply cnext_inv; eauto.
  - destruct (nth_error (cruns w) i) as [[me srv [|m|]]|] eqn:E; try discriminate R.
    destruct (initiate3 me srv m b3 b4) as [k4|] eqn:F; [|discriminate]. injection R as <-.
    inversion K as [|? ? K1 K2]; subst. inversion K2 as [|? ? K3 _]; subst.
    now apply (cfinish_inv w i me srv m b3 b4).
  - destruct (respond1 (length (sruns w)) me ep c1 b0) as [[m out]|] eqn:F; [|discriminate]. injection R as <-.
    eapply sstart_inv; eauto.
  - destruct (nth_error (sruns w) j) as [[me ep [m|]]|] eqn:E; try discriminate R.
    destruct (respond2 j me ep m b1 b2 b3) as [[x out]|] eqn:F; [|discriminate]. injection R as <-.
    eapply sfinish_inv; eauto.
  - refine (cwrite_inv _ _ _ _ V R _). right. inversion K; subst. now apply knows_pub.
  - refine (cwrite_inv _ _ _ _ V R _). now left.
  - refine (swrite_inv _ _ _ _ V R _). right. inversion K; subst. now apply knows_pub.
  - refine (swrite_inv _ _ _ _ V R _). now left.
Qed.

Lemma inv_start : inv start.
Proof.
  split; [|split]; [intros [|i] c E; discriminate E| |apply Forall_nil]. intros [|i] c E; discriminate E.
Qed.

Lemma steps_inv w w' : inv w -> steps w w' -> grows w w' /\ inv w'.
Proof.
  intros V H. induction H as [w|w e w' w'' H1 H2 IH]; [split; [apply grows_refl|exact V]|].
  destruct (step_inv _ _ _ V H1) as [G V']. destruct (IH V') as [G' V'']. split; [|exact V''].
  eapply grows_trans; eauto.
Qed.
