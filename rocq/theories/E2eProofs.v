(** Proofs about the symbolic key exchange between clients. *)
From Coq Require Import List Arith Lia Bool.
Import ListNotations.
From Verif Require Import E2eModel.

Lemma is_true x y : is x y = true -> x = y.
Proof. unfold is. destruct (term_eq x y); congruence. Qed.
Lemma decap_some sk x k : decap sk x = Some k -> exists c, x = Cph (Pk sk) c /\ k = Key c.
Proof.
  destruct x; cbn; try discriminate. destruct (is x (Pk sk)) eqn:E; [|discriminate].
  apply is_true in E. intros [= <-]. subst. eauto.
Qed.
Lemma unseal_some k b m : unseal k b = Some m -> b = Box k m.
Proof. destruct b; cbn; try discriminate. destruct (is b1 k) eqn:E; [|discriminate]. apply is_true in E. intros [= <-]. now subst. Qed.
Lemma step2_some j me k content r out : step2 j me k content = Some (r, out) ->
  exists x q c2, x <> me /\ content = Pair (Pair (Nm x) q) (Cph (Pk (Long me)) c2) /\
    r = mkRrun me k (Pair (Nm x) q) q (Key c2) [] /\ out = [Box k (Cph q (R3 j))].
Proof.
  unfold step2. destruct content as [| | | | | | | |a b| | | |]; try discriminate. destruct a as [| | | | | | | |x q| | | |]; try discriminate.
  destruct x as [| | | | | |x| | | | | |]; try discriminate. destruct (Nat.eqb_spec x me); [discriminate|].
  destruct (decap (Long me) b) eqn:D; [|discriminate]. intros [= <- <-]. apply decap_some in D as (c2 & -> & ->). eauto 9.
Qed.

Lemma nth_upd_eq {A} (l : list A) i x y : nth_error l i = Some y -> nth_error (upd l i x) i = Some x.
Proof. revert i. induction l as [|a l IH]; intros [|i]; cbn; try discriminate; auto. Qed.
Lemma nth_upd_ne {A} (l : list A) i j x : i <> j -> nth_error (upd l i x) j = nth_error l j.
Proof. revert i j. induction l as [|a l IH]; intros [|i] [|j] H; cbn; auto; try congruence. Qed.
Lemma nth_app_old {A} (l : list A) x i y : nth_error l i = Some y -> nth_error (l ++ x) i = Some y.
Proof. intro H. rewrite nth_error_app1; auto. apply nth_error_Some. congruence. Qed.
Lemma nth_app_last {A} (l : list A) x i y : nth_error (l ++ [x]) i = Some y -> nth_error l i = Some y \/ i = length l /\ y = x.
Proof.
  intro H. destruct (Nat.lt_ge_cases i (length l)) as [L|L].
  - left. now rewrite nth_error_app1 in H.
  - right. rewrite nth_error_app2 in H by exact L. destruct (i - length l) as [|n] eqn:E; cbn in H; [|destruct n; discriminate].
    injection H as <-. split; [lia|reflexivity].
Qed.
Lemma nth_app_new {A} (l : list A) x : nth_error (l ++ [x]) (length l) = Some x.
Proof. rewrite nth_error_app2, Nat.sub_diag by lia. reflexivity. Qed.

(** ** A bound of the attacker's knowledge *)

Definition bad (w : world) (p : term) : Prop := match p with Pk (Long a) => In a (leaked w) | _ => True end.
Definition target (w : world) (c : coin) : option term :=
  match c with
  | R1 i | R2 i => option_map i_key (nth_error (iruns w) i)
  | R3 j => option_map r_key (nth_error (rruns w) j)
  | Ra _ => None
  end.
Definition coin_pub (w : world) (c : coin) : Prop :=
  match c with Ra _ => True | _ => exists p, target w c = Some p /\ bad w p end.
Definition kpub (w : world) (k : term) : Prop :=
  match k with Key c => coin_pub w c | Pw n => In n (pws w) | _ => False end.
Definition guard (w : world) (c : coin) : Prop :=
  match c with
  | R2 i => exists r, nth_error (iruns w) i = Some r /\ kpub w (i_k1 r)
  | R3 j => exists r, nth_error (rruns w) j = Some r /\ kpub w (r_k1 r)
  | _ => True
  end.
Definition cph_ok (w : world) (p : term) (c : coin) : Prop := coin_pub w c \/ target w c = Some p /\ guard w c.

Definition okbox (w : world) (k m : term) : Prop :=
  (exists a n, k = Pw n /\ m = record a) \/
  (exists i r, nth_error (iruns w) i = Some r /\ k = i_k1 r /\ m = Pair (record (i_me r)) (Cph (i_key r) (R2 i))) \/
  (exists j r, nth_error (rruns w) j = Some r /\ k = r_k1 r /\ m = Cph (r_key r) (R3 j)) \/
  (exists i r k3 out n, nth_error (iruns w) i = Some r /\ i_end r = Some (k3, out) /\ nth_error out n = Some m /\ k = Mk false n (i_root i k3)) \/
  (exists j r n, nth_error (rruns w) j = Some r /\ nth_error (r_out r) n = Some m /\ k = Mk true n (r_root j r)).

Definition sec_ok (w : world) (s : secret) : Prop :=
  match s with
  | FromI i _ => exists r k3 out, nth_error (iruns w) i = Some r /\ i_end r = Some (k3, out) /\ coin_pub w (R2 i) /\ kpub w k3
  | FromR j _ => exists r, nth_error (rruns w) j = Some r /\ kpub w (r_k2 r) /\ coin_pub w (R3 j)
  end.

Fixpoint pub (w : world) (t : term) : Prop :=
  match t with
  | Pk _ | Nm _ | Txt _ => True
  | Sk (Long a) => In a (leaked w)
  | Sk (Atk _) => True
  | Rnd c | Key c => coin_pub w c
  | Pw n => In n (pws w)
  | Cph p c => cph_ok w p c
  | Box k m => pub w k /\ pub w m \/ okbox w k m
  | Pair a b | Root a b => pub w a /\ pub w b
  | Mk _ _ r => pub w r
  | Sec s => sec_ok w s
  end.

(** ** The invariant *)

Definition isimple (k : term) : Prop := (exists c, k = Key c) \/ (exists n, k = Pw n).
Lemma simple_pub w k : isimple k -> (pub w k <-> kpub w k).
Proof. intros [[c ->]|[n ->]]; cbn; tauto. Qed.

Definition own_k1 (i : nat) (k : term) : Prop := k = Key (R1 i) \/ exists n, k = Pw n.
Lemma own_simple i k : own_k1 i k -> isimple k.
Proof. intros [->|[n ->]]; [left|right]; eauto. Qed.

Definition aim (w : world) (me : nat) (c : coin) : Prop := coin_pub w c \/ target w c = Some (Pk (Long me)).
Definition named (w : world) (id : term) (c : coin) : Prop :=
  forall i r, c = R2 i -> nth_error (iruns w) i = Some r -> kpub w (i_k1 r) \/ id = record (i_me r).

Definition inv_i (w : world) : Prop := forall i r, nth_error (iruns w) i = Some r ->
  own_k1 i (i_k1 r) /\ forall k3 out, i_end r = Some (k3, out) ->
    (exists c3, k3 = Key c3 /\ aim w (i_me r) c3) /\
    forall n m, nth_error out n = Some m -> pub w m \/ m = Sec (FromI i n).
Definition inv_r (w : world) : Prop := forall j r, nth_error (rruns w) j = Some r ->
  isimple (r_k1 r) /\
  (exists c2, r_k2 r = Key c2 /\ (coin_pub w c2 \/ target w c2 = Some (Pk (Long (r_me r))) /\ named w (r_id r) c2)) /\
  forall n m, nth_error (r_out r) n = Some m -> pub w m \/ m = Sec (FromR j n).
Definition inv (w : world) : Prop := inv_i w /\ inv_r w /\ Forall (pub w) (net w).

Lemma knows_pub w t : inv w -> knows w t -> pub w t.
Proof.
  intros (Ii & Ir & Nt) K. induction K; cbn -[coin_pub cph_ok okbox] in *; auto.
  - rewrite Forall_forall in Nt. auto.
  - exact I.
  - left. exact IHK2.
  - destruct IHK1 as [H|[T _]]; [exact H|]. destruct c; cbn -[target] in *; try discriminate; exists (Pk k); (split; [exact T|]);
      destruct k; cbn; auto.
  - destruct IHK as [Hp|[T _]]; [exact Hp|]. destruct c; cbn -[target] in *; try discriminate; exists p; (split; [exact T|]);
      destruct p as [[a|a]| | | | | | | | | | | |]; cbn; auto; now destruct (H (Long a)).
  - destruct IHK1 as [[_ H]|O]; [exact H|].
    destruct O as [(a & n & -> & ->)|[(i & r & E & -> & ->)|[(j & r & E & -> & ->)|[(i & r & k3 & out & n & E & D & M & ->)|(j & r & n & E & M & ->)]]]].
    + cbn. auto.
    + cbn -[cph_ok]. split; [auto|]. right. cbn. rewrite E. split; [reflexivity|]. exists r. split; [reflexivity|].
      apply (simple_pub w _ (own_simple _ _ (proj1 (Ii _ _ E)))). exact IHK2.
    + cbn -[cph_ok]. right. cbn. rewrite E. split; [reflexivity|]. exists r. split; [reflexivity|].
      apply (simple_pub w _ (proj1 (Ir _ _ E))). exact IHK2.
    + destruct (Ii _ _ E) as [_ H]. destruct (H _ _ D) as [(c3 & -> & _) T]. destruct (T _ _ M) as [P| ->]; [exact P|].
      cbn in IHK2 |- *. exists r, (Key c3), out. tauto.
    + destruct (Ir _ _ E) as (_ & (c2 & K2' & _) & T). destruct (T _ _ M) as [P| ->]; [exact P|].
      cbn in IHK2 |- *. exists r. rewrite K2' in *. cbn in *. tauto.
  - tauto.
  - tauto.
Qed.

(** ** Growth *)

Definition grows (w w' : world) : Prop :=
  (forall i r, nth_error (iruns w) i = Some r -> exists r', nth_error (iruns w') i = Some r' /\
     i_me r' = i_me r /\ i_who r' = i_who r /\ i_key r' = i_key r /\ i_k1 r' = i_k1 r /\
     forall k3 out, i_end r = Some (k3, out) -> exists more, i_end r' = Some (k3, out ++ more)) /\
  (forall j r, nth_error (rruns w) j = Some r -> exists r', nth_error (rruns w') j = Some r' /\
     r_me r' = r_me r /\ r_k1 r' = r_k1 r /\ r_id r' = r_id r /\ r_key r' = r_key r /\ r_k2 r' = r_k2 r /\ exists more, r_out r' = r_out r ++ more) /\
  incl (leaked w) (leaked w') /\ incl (pws w) (pws w').

Lemma grows_refl w : grows w w.
Proof.
  repeat split; try apply incl_refl.
  - intros i r E. exists r. repeat split; auto. intros k3 out D. exists []. now rewrite app_nil_r.
  - intros j r E. exists r. repeat split; auto. exists []. now rewrite app_nil_r.
Qed.
Lemma grows_trans a b c : grows a b -> grows b c -> grows a c.
Proof.
  intros (A1 & A2 & A3 & A4) (B1 & B2 & B3 & B4). repeat split; try (eapply incl_tran; eauto).
  - intros i r E. destruct (A1 _ _ E) as (r1 & E1 & P1 & P2 & P3 & P4 & P5). destruct (B1 _ _ E1) as (r2 & E2 & Q1 & Q2 & Q3 & Q4 & Q5).
    exists r2. repeat split; try congruence. intros k3 out D. destruct (P5 _ _ D) as (m1 & D1). destruct (Q5 _ _ D1) as (m2 & D2).
    exists (m1 ++ m2). now rewrite app_assoc.
  - intros j r E. destruct (A2 _ _ E) as (r1 & E1 & P1 & P2 & P3 & P4 & P5 & m1 & P6). destruct (B2 _ _ E1) as (r2 & E2 & Q1 & Q2 & Q3 & Q4 & Q5 & m2 & Q6).
    exists r2. repeat split; try congruence. exists (m1 ++ m2). rewrite Q6, P6. now rewrite app_assoc.
Qed.

Section Mono.
Variables w w' : world.
Hypothesis G : grows w w'.

Lemma m_bad p : bad w p -> bad w' p.
Proof. destruct p as [[a|a]| | | | | | | | | | | |]; cbn; auto. apply G. Qed.
Lemma m_target c p : target w c = Some p -> target w' c = Some p.
Proof.
  destruct G as (A & B & _). destruct c as [i|i|j|n]; cbn; try discriminate.
  - destruct (nth_error (iruns w) i) as [r0|] eqn:E; cbn; [|discriminate]. intros [= <-]. destruct (A _ _ E) as (r & -> & _ & _ & H & _). cbn. now rewrite H.
  - destruct (nth_error (iruns w) i) as [r0|] eqn:E; cbn; [|discriminate]. intros [= <-]. destruct (A _ _ E) as (r & -> & _ & _ & H & _). cbn. now rewrite H.
  - destruct (nth_error (rruns w) j) as [r0|] eqn:E; cbn; [|discriminate]. intros [= <-]. destruct (B _ _ E) as (r & -> & _ & _ & _ & H & _). cbn. now rewrite H.
Qed.
Lemma m_coin c : coin_pub w c -> coin_pub w' c.
Proof. destruct c; cbn -[target]; auto; intros (p & T & H); exists p; split; auto using m_target, m_bad. Qed.
Lemma m_kpub k : kpub w k -> kpub w' k.
Proof. destruct k; cbn -[coin_pub]; auto using m_coin. apply G. Qed.
Lemma m_guard c : guard w c -> guard w' c.
Proof.
  destruct G as (A & B & _). destruct c as [i|i|j|n]; cbn; auto; intros (r & E & K).
  - destruct (A _ _ E) as (r' & E' & _ & _ & _ & H & _). exists r'. rewrite H. auto using m_kpub.
  - destruct (B _ _ E) as (r' & E' & _ & H & _). exists r'. rewrite H. auto using m_kpub.
Qed.
Lemma m_cph p c : cph_ok w p c -> cph_ok w' p c.
Proof. intros [H|[H1 H2]]; [left; now apply m_coin|right; auto using m_target, m_guard]. Qed.
Lemma m_okbox k m : okbox w k m -> okbox w' k m.
Proof.
  destruct G as (A & B & _).
  intros [H|[(i & r & E & -> & ->)|[(j & r & E & -> & ->)|[(i & r & k3 & out & n & E & D & M & ->)|(j & r & n & E & M & ->)]]]].
  - now left.
  - destruct (A _ _ E) as (r' & E' & H1 & _ & H2 & H3 & _). right. left. exists i, r'. rewrite H1, H2, H3. auto.
  - destruct (B _ _ E) as (r' & E' & H1 & H2 & H3 & H4 & _). right. right. left. exists j, r'. rewrite H2, H4. auto.
  - destruct (A _ _ E) as (r' & E' & _ & _ & _ & _ & H). destruct (H _ _ D) as (more & D'). do 3 right. left.
    exists i, r', k3, (out ++ more), n. auto using nth_app_old.
  - destruct (B _ _ E) as (r' & E' & _ & _ & _ & _ & H2 & more & H). do 4 right. exists j, r', n. unfold r_root. rewrite H, H2. auto using nth_app_old.
Qed.
Lemma m_sec s : sec_ok w s -> sec_ok w' s.
Proof.
  destruct G as (A & B & _). destruct s as [i n|j n]; cbn -[coin_pub].
  - intros (r & k3 & out & E & D & H1 & H2). destruct (A _ _ E) as (r' & E' & _ & _ & _ & _ & H). destruct (H _ _ D) as (more & D').
    exists r', k3, (out ++ more). auto using m_coin, m_kpub.
  - intros (r & E & H1 & H2). destruct (B _ _ E) as (r' & E' & _ & _ & _ & _ & H & _). exists r'. rewrite H. auto using m_coin, m_kpub.
Qed.
Lemma m_pub t : pub w t -> pub w' t.
Proof.
  induction t; cbn -[coin_pub cph_ok okbox sec_ok]; auto using m_coin, m_cph, m_sec.
  - destruct k; auto. apply G.
  - apply G.
  - intros [[H1 H2]|H]; [left; auto|right; now apply m_okbox].
  - tauto.
  - tauto.
Qed.
Lemma m_aim me c : aim w me c -> aim w' me c.
Proof. intros [H|H]; [left; now apply m_coin|right; now apply m_target]. Qed.
End Mono.

Lemma m_named w w' id c p : grows w w' -> target w c = Some p -> named w id c -> named w' id c.
Proof.
  intros G T N i r' -> E'. cbn in T. destruct (nth_error (iruns w) i) as [r|] eqn:E; [|discriminate].
  destruct (proj1 G _ _ E) as (r1 & E1 & H1 & _ & _ & H2 & _). assert (r1 = r') by congruence. subst r1. rewrite H1, H2.
  destruct (N i r eq_refl E) as [H|H]; [left; now apply (m_kpub w)|now right].
Qed.

(** What an old run has to satisfy still holds. *)
Definition good_i (w : world) (i : nat) (r : irun) : Prop :=
  own_k1 i (i_k1 r) /\ forall k3 out, i_end r = Some (k3, out) ->
    (exists c3, k3 = Key c3 /\ aim w (i_me r) c3) /\
    forall n m, nth_error out n = Some m -> pub w m \/ m = Sec (FromI i n).
Definition good_r (w : world) (j : nat) (r : rrun) : Prop :=
  isimple (r_k1 r) /\
  (exists c2, r_k2 r = Key c2 /\ (coin_pub w c2 \/ target w c2 = Some (Pk (Long (r_me r))) /\ named w (r_id r) c2)) /\
  forall n m, nth_error (r_out r) n = Some m -> pub w m \/ m = Sec (FromR j n).
Lemma good_i_mono w w' i r : grows w w' -> good_i w i r -> good_i w' i r.
Proof.
  intros G [H1 H2]. split; [exact H1|]. intros k3 out D. destruct (H2 _ _ D) as [(c3 & E & A) T]. split.
  - exists c3. split; [exact E|]. now apply (m_aim w).
  - intros n m M. destruct (T _ _ M); [left; now apply (m_pub w)|now right].
Qed.
Lemma good_r_mono w w' j r : grows w w' -> good_r w j r -> good_r w' j r.
Proof.
  intros G (H1 & (c2 & E & A) & T). split; [exact H1|]. split.
  - exists c2. split; [exact E|]. destruct A as [A|[A1 A2]]; [left; now apply (m_coin w)|right]. split; [now apply (m_target w)|]. now apply (m_named w w' _ _ _ G A1).
  - intros n m M. destruct (T _ _ M); [left; now apply (m_pub w)|now right].
Qed.

Lemma inv_step w w' : inv w -> grows w w' ->
  (forall i r, nth_error (iruns w') i = Some r -> nth_error (iruns w) i = Some r \/ good_i w' i r) ->
  (forall j r, nth_error (rruns w') j = Some r -> nth_error (rruns w) j = Some r \/ good_r w' j r) ->
  (forall t, In t (net w') -> In t (net w) \/ pub w' t) -> inv w'.
Proof.
  intros (Ii & Ir & Nt) G Hi Hr Hn. split; [|split].
  - intros i r E. destruct (Hi _ _ E) as [O|O]; [|exact O]. exact (good_i_mono w w' i r G (Ii _ _ O)).
  - intros j r E. destruct (Hr _ _ E) as [O|O]; [|exact O]. exact (good_r_mono w w' j r G (Ir _ _ O)).
  - rewrite Forall_forall in *. intros t T. destruct (Hn _ T) as [O|O]; [|exact O]. apply (m_pub w w' G). auto.
Qed.

Lemma in_app_old {A} (l x : list A) t (P : A -> Prop) : (forall y, In y x -> P y) -> In t (l ++ x) -> In t l \/ P t.
Proof. intros H I. apply in_app_or in I as [I|I]; auto. Qed.

Lemma grows_iruns w ir sh nt lk pw : (forall i r, nth_error (iruns w) i = Some r -> exists r', nth_error ir i = Some r' /\
     i_me r' = i_me r /\ i_who r' = i_who r /\ i_key r' = i_key r /\ i_k1 r' = i_k1 r /\
     forall k3 out, i_end r = Some (k3, out) -> exists more, i_end r' = Some (k3, out ++ more)) ->
  incl (leaked w) lk -> incl (pws w) pw -> grows w (mkWorld ir (rruns w) sh nt lk pw).
Proof. intros H L P. split; [exact H|]. split; [apply (grows_refl w)|]. auto. Qed.
Lemma grows_rruns w rr sh nt : (forall j r, nth_error (rruns w) j = Some r -> exists r', nth_error rr j = Some r' /\
     r_me r' = r_me r /\ r_k1 r' = r_k1 r /\ r_id r' = r_id r /\ r_key r' = r_key r /\ r_k2 r' = r_k2 r /\ exists more, r_out r' = r_out r ++ more) ->
  grows w (mkWorld (iruns w) rr sh nt (leaked w) (pws w)).
Proof. intros H. split; [apply (grows_refl w)|]. split; [exact H|]. split; apply incl_refl. Qed.

Lemma grows_upd_i w i r e sh nt : nth_error (iruns w) i = Some r ->
  (forall k3 out, i_end r = Some (k3, out) -> exists more, e = Some (k3, out ++ more)) ->
  grows w (mkWorld (upd (iruns w) i (mkIrun (i_me r) (i_who r) (i_key r) (i_k1 r) e)) (rruns w) sh nt (leaked w) (pws w)).
Proof.
  intros E H. apply grows_iruns; try apply incl_refl. intros k r0 E0. destruct (Nat.eq_dec i k) as [<-|N].
  - assert (r0 = r) by congruence. subst r0. eexists. split; [apply (nth_upd_eq _ _ _ _ E)|]. cbn. auto 6.
  - exists r0. rewrite nth_upd_ne by exact N. repeat split; auto. intros k3 out D. exists []. now rewrite app_nil_r.
Qed.
Lemma grows_upd_r w j r m sh nt : nth_error (rruns w) j = Some r ->
  grows w (mkWorld (iruns w) (upd (rruns w) j (mkRrun (r_me r) (r_k1 r) (r_id r) (r_key r) (r_k2 r) (r_out r ++ [m]))) sh nt (leaked w) (pws w)).
Proof.
  intros E. apply grows_rruns. intros k r0 E0. destruct (Nat.eq_dec j k) as [<-|N].
  - assert (r0 = r) by congruence. subst r0. eexists. split; [apply (nth_upd_eq _ _ _ _ E)|]. cbn. repeat split. now exists [m].
  - exists r0. rewrite nth_upd_ne by exact N. repeat split; auto. exists []. now rewrite app_nil_r.
Qed.
Lemma grows_app_i w r sh nt : grows w (mkWorld (iruns w ++ [r]) (rruns w) sh nt (leaked w) (pws w)).
Proof.
  apply grows_iruns; try apply incl_refl. intros i r0 E. exists r0. split; [now apply nth_app_old|]. repeat split; auto.
  intros k3 out D. exists []. now rewrite app_nil_r.
Qed.
Lemma grows_app_r w r sh nt : grows w (mkWorld (iruns w) (rruns w ++ [r]) sh nt (leaked w) (pws w)).
Proof.
  apply grows_rruns. intros j r0 E. exists r0. split; [now apply nth_app_old|]. repeat split; auto. exists []. now rewrite app_nil_r.
Qed.

(** A first message that opens is one of an exchange, or the attacker's. *)
Lemma opened w k id c me : inv w -> isimple k -> knows w (Box k (Pair id (Cph (Pk (Long me)) c))) ->
  coin_pub w c \/ target w c = Some (Pk (Long me)) /\ named w id c.
Proof.
  intros V S K. pose proof V as (Ii & Ir & Nt). apply (knows_pub _ _ V) in K. cbn -[cph_ok okbox] in K.
  destruct K as [[_ [_ [H|[H1 H2]]]]|[(a & n & -> & F)|[(i & r & E & -> & F)|[(j & r & E & -> & F)|[(i & r & k3 & out & n & E & D & M & ->)|(j & r & n & E & M & ->)]]]]].
  - now left.
  - right. split; [exact H1|]. intros i r -> E. left. destruct H2 as (r' & E' & H2). assert (r' = r) by congruence. now subst.
  - discriminate.
  - injection F as -> F ->. right. cbn. rewrite E. cbn. split; [now rewrite F|]. intros i' r' [= <-] E'. right. congruence.
  - discriminate.
  - destruct S as [[? S]|[? S]]; discriminate.
  - destruct S as [[? S]|[? S]]; discriminate.
Qed.
(** And so with an answer. *)
Lemma answered w k c me : inv w -> isimple k -> knows w (Box k (Cph (Pk (Long me)) c)) -> aim w me c.
Proof.
  intros V S K. apply (knows_pub _ _ V) in K. cbn -[cph_ok okbox] in K.
  destruct K as [[_ [H|[H1 _]]]|[(a & n & -> & F)|[(i & r & E & -> & F)|[(j & r & E & -> & F)|[(i & r & k3 & out & n & E & D & M & ->)|(j & r & n & E & M & ->)]]]]].
  - now left.
  - now right.
  - discriminate.
  - discriminate.
  - injection F as F ->. right. cbn. rewrite E. cbn. now rewrite F.
  - destruct S as [[? S]|[? S]]; discriminate.
  - destruct S as [[? S]|[? S]]; discriminate.
Qed.

Lemma blob_simple w a k : inv w -> blob_key w a k -> isimple k.
Proof. intros (Ii & _) [(i & r & E & _ & <-)|(n & _ & ->)]; [apply (own_simple i), (proj1 (Ii _ _ E))|right; eauto]. Qed.

Lemma answer_inv w me k content r out sh : inv w -> isimple k -> knows w (Box k content) -> step2 (length (rruns w)) me k content = Some (r, out) ->
  let w' := mkWorld (iruns w) (rruns w ++ [r]) sh (net w ++ out) (leaked w) (pws w) in grows w w' /\ inv w'.
Proof.
  intros V S K H. cbv zeta. set (w' := mkWorld _ _ _ _ _ _). assert (G : grows w w') by apply grows_app_r. split; [exact G|].
  apply step2_some in H as (x & q & c2 & Nx & -> & -> & ->).
  apply (inv_step w w' V G); cbn [iruns rruns net w'].
  - auto.
  - intros j r E. apply nth_app_last in E as [E|[-> ->]]; [now left|]. right. split; [exact S|]. split.
    + exists c2. split; [reflexivity|]. apply (opened _ _ _ _ _ V S) in K. cbn [r_me r_id]. destruct K as [A|[A1 A2]]; [left; now apply (m_coin w)|right].
      split; [now apply (m_target w)|]. now apply (m_named w w' _ _ _ G A1).
    + intros n m M. destruct n; discriminate.
  - intros t T. apply in_app_or in T as [T|[<-|[]]]; [now left|]. right. cbn -[okbox]. right. right. right. left.
    exists (length (rruns w)), (mkRrun me k (Pair (Nm x) q) q (Key c2) []). split; [apply nth_app_new|]. auto.
Qed.

Lemma texts_app w P (out : list term) m : (forall n t, nth_error out n = Some t -> pub w t \/ t = P n) -> (pub w m \/ m = P (length out)) ->
  forall n t, nth_error (out ++ [m]) n = Some t -> pub w t \/ t = P n.
Proof. intros H Hm n t E. apply nth_app_last in E as [E|[-> ->]]; auto. Qed.

Lemma isay_inv w i r k3 out m : inv w -> nth_error (iruns w) i = Some r -> i_end r = Some (k3, out) ->
  (pub w m \/ m = Sec (FromI i (length out))) ->
  let w' := mkWorld (upd (iruns w) i (mkIrun (i_me r) (i_who r) (i_key r) (i_k1 r) (Some (k3, out ++ [m])))) (rruns w) (shares w)
    (net w ++ [Box (Mk false (length out) (i_root i k3)) m]) (leaked w) (pws w) in grows w w' /\ inv w'.
Proof.
  intros V E D Hm. cbv zeta. set (w' := mkWorld _ _ _ _ _ _).
  assert (G : grows w w') by (apply grows_upd_i; [exact E|]; intros k o X; exists [m]; congruence). split; [exact G|].
  apply (inv_step w w' V G); cbn [iruns rruns net w']; auto.
  - intros k r0 E0. destruct (Nat.eq_dec i k) as [<-|N]; [|rewrite nth_upd_ne in E0 by exact N; now left].
    rewrite (nth_upd_eq _ _ _ _ E) in E0. injection E0 as <-. right.
    destruct (good_i_mono w w' i r G (proj1 V _ _ E)) as [H1 H2]. split; [exact H1|]. cbn. intros k3' out' [= <- <-].
    destruct (H2 _ _ D) as [H3 H4]. split; [exact H3|]. apply (texts_app w' (fun n => Sec (FromI i n)) out m H4).
    destruct Hm as [Hm|Hm]; [left; now apply (m_pub w)|now right].
  - intros t T. apply in_app_or in T as [T|[<-|[]]]; [now left|]. right. cbn -[okbox]. right. do 3 right. left.
    eexists i, _, k3, (out ++ [m]), (length out). split; [apply (nth_upd_eq _ _ _ _ E)|]. split; [reflexivity|]. split; [apply nth_app_new|reflexivity].
Qed.
Lemma rsay_inv w j r m : inv w -> nth_error (rruns w) j = Some r ->
  (pub w m \/ m = Sec (FromR j (length (r_out r)))) ->
  let w' := mkWorld (iruns w) (upd (rruns w) j (mkRrun (r_me r) (r_k1 r) (r_id r) (r_key r) (r_k2 r) (r_out r ++ [m]))) (shares w)
    (net w ++ [Box (Mk true (length (r_out r)) (r_root j r)) m]) (leaked w) (pws w) in grows w w' /\ inv w'.
Proof.
  intros V E Hm. cbv zeta. set (w' := mkWorld _ _ _ _ _ _).
  assert (G : grows w w') by (apply grows_upd_r; exact E). split; [exact G|].
  apply (inv_step w w' V G); cbn [iruns rruns net w']; auto.
  - intros k r0 E0. destruct (Nat.eq_dec j k) as [<-|N]; [|rewrite nth_upd_ne in E0 by exact N; now left].
    rewrite (nth_upd_eq _ _ _ _ E) in E0. injection E0 as <-. right.
    destruct (good_r_mono w w' j r G (proj1 (proj2 V) _ _ E)) as (H1 & H2 & H4). split; [exact H1|]. split; [exact H2|]. cbn [r_out].
    apply (texts_app w' (fun n => Sec (FromR j n)) (r_out r) m H4).
    destruct Hm as [Hm|Hm]; [left; now apply (m_pub w)|now right].
  - intros t T. apply in_app_or in T as [T|[<-|[]]]; [now left|]. right. cbn -[okbox]. right. do 4 right.
    eexists j, _, (length (r_out r)). split; [apply (nth_upd_eq _ _ _ _ E)|]. split; [apply nth_app_new|reflexivity].
Qed.

Lemma step_inv w e w' : inv w -> step w e w' -> grows w w' /\ inv w'.
Proof.
  intros V H. destruct H as [a|n|me n|me who key pw k1 out Kk F|me c b k content r out Kc Kb D U F|me k b content r out B Kb U F
    |i k b r content k3 E D B Kb U F|i m r k3 out E D Km|i r k3 out E D|j m r E Km|j r E].
  - assert (G : grows w (mkWorld (iruns w) (rruns w) (shares w) (net w) (a :: leaked w) (pws w))) by (apply grows_iruns; [apply (grows_refl w)|apply incl_tl, incl_refl|apply incl_refl]).
    split; [exact G|]. apply (inv_step _ _ V G); auto.
  - assert (G : grows w (mkWorld (iruns w) (rruns w) (shares w) (net w) (leaked w) (n :: pws w))) by (apply grows_iruns; [apply (grows_refl w)|apply incl_refl|apply incl_tl, incl_refl]).
    split; [exact G|]. apply (inv_step _ _ V G); auto.
  - set (w' := mkWorld _ _ _ _ _ _). assert (G : grows w w') by (apply grows_iruns; [apply (grows_refl w)|apply incl_refl|apply incl_refl]).
    split; [exact G|]. apply (inv_step w w' V G); cbn [iruns rruns net w']; auto. intros t T. apply in_app_or in T as [T|[<-|[]]]; [now left|].
    right. cbn -[okbox]. right. left. eauto.
  - set (w' := mkWorld _ _ _ _ _ _). assert (G : grows w w') by apply grows_app_i. split; [exact G|].
    assert (Hs : own_k1 (length (iruns w)) k1) by (unfold step1 in F; destruct pw; injection F as <- _; [right|left]; eauto).
    assert (En : nth_error (iruns w') (length (iruns w)) = Some (mkIrun me who key k1 None)) by apply nth_app_new.
    apply (inv_step w w' V G); cbn [rruns]; auto.
    + intros i r E. cbn [iruns w'] in E. apply nth_app_last in E as [E|[-> ->]]; [now left|]. right. split; [exact Hs|]. discriminate.
    + intros t T. cbn [net w'] in T. apply in_app_or in T as [T|T]; [now left|]. right.
      assert (Hb : pub w' (Box k1 (Pair (record me) (Cph key (R2 (length (iruns w))))))).
      { cbn -[okbox]. right. right. left. exists (length (iruns w)), (mkIrun me who key k1 None). auto. }
      unfold step1 in F. destruct pw as [n|]; injection F as <- <-; cbn [In] in T.
      * destruct T as [<-|[]]. exact Hb.
      * destruct T as [<-|[<-|[]]]; [|exact Hb]. cbn [pub]. right. cbn [target]. rewrite En. split; [reflexivity|exact I].
  - apply unseal_some in U. subst b. apply decap_some in D as (c' & -> & ->). apply (answer_inv w me (Key c') content r out (shares w)); auto. left; eauto.
  - apply unseal_some in U. subst b. apply (answer_inv w me k content r out (shares w)); auto. now apply (blob_simple w me).
  - set (w' := mkWorld _ _ _ _ _ _). assert (G : grows w w') by (apply grows_upd_i; [exact E|]; congruence). split; [exact G|].
    apply unseal_some in U. subst b. apply decap_some in F as (c3 & -> & ->).
    apply (answered _ _ _ _ V (blob_simple _ _ _ V B)) in Kb.
    apply (inv_step w w' V G); cbn [iruns rruns net w']; auto.
    intros k' r0 E0. destruct (Nat.eq_dec i k') as [<-|N]; [|rewrite nth_upd_ne in E0 by exact N; now left].
    rewrite (nth_upd_eq _ _ _ _ E) in E0. injection E0 as <-. right. split; [apply (proj1 (proj1 V _ _ E))|]. cbn. intros k3 out [= <- <-]. split.
    + exists c3. split; [reflexivity|]. now apply (m_aim w).
    + intros n m M. destruct n; discriminate.
  - apply isay_inv; auto. left. now apply knows_pub.
  - apply isay_inv; auto.
  - apply rsay_inv; auto. left. now apply knows_pub.
  - apply rsay_inv; auto.
Qed.

Lemma inv_start : inv start.
Proof. split; [|split]; [intros [|i] r; discriminate|intros [|j] r; discriminate|constructor]. Qed.
Lemma steps_inv w w' : inv w -> steps w w' -> grows w w' /\ inv w'.
Proof.
  intros V H. induction H as [|w e w' w'' H Hs IH]; [split; [apply grows_refl|exact V]|].
  destruct (step_inv _ _ _ V H) as [G V']. destruct (IH V') as [G' V'']. split; [now apply (grows_trans w w')|exact V''].
Qed.
