(** Whether the line of a message tells who wrote it. *)
From Verif Require Import Base XdrModel XdrProofs RpcModel HexModel BlobProps AcctProofs LogProps AddrModel AddrProps GroupModel WinModel WhoModel.
From Coq Require Import Lia Permutation.
Local Open Scope N_scope.

(** * C83 *)

(** ** What is asked of names and colours *)

(** Whom a reader may have in a group: contacts whose nicks do not have the byte [x] in them
    and do not look like an identity. *)
Definition names_ok (x : N) (b : book) : Prop :=
  forall n p, find_nick b n = Some p -> ~ In x n /\ forall i, length i = 32%nat -> n <> hex_encode i.

(** One's own nick, likewise, and no contact has it. *)
Definition own_ok (x : N) (b : book) (me : bytes) : Prop :=
  ~ In x me /\ find_nick b me = None /\ forall i, length i = 32%nat -> me <> hex_encode i.

Definition member_ok (w : option bytes) : Prop :=
  match w with Some f => Forall is_byte f /\ length f = 32%nat | None => True end.

(** Neither begins with the other. *)
Definition apart (a b : bytes) : Prop := forall s t, a ++ s <> b ++ t.

(** ttk.Unescape takes away the colours and nothing else. *)
Definition unescapes (unesc : bytes -> bytes) (P : palette) : Prop :=
  unesc [] = [] /\
  (forall s t, ~ In 27 s -> unesc (s ++ t) = s ++ unesc t) /\
  (forall c t, In c [p_nick P; p_gc P; p_pm P; p_reset P; p_mention P] -> unesc (c ++ t) = unesc t).

(** ** Reading a line *)

Lemma cut (x : N) a b r s : ~ In x a -> ~ In x b -> a ++ x :: r = b ++ x :: s -> a = b /\ r = s.
Proof.
  revert b. induction a as [|y a IH]; intros [|z b] A B E; cbn in *; injection E; intros; subst; auto.
  - exfalso. apply B. now left.
  - exfalso. apply A. now left.
  - destruct (IH b) as [-> ->]; auto.
Qed.

Lemma hex_range i c : In c (hex_encode i) -> c <> 27 /\ c <> 32.
Proof. intros H. apply hex_digits in H. lia. Qed.

Lemma stamped_inj s t l m : length s = length t -> stamped s l = stamped t m -> l = m.
Proof.
  unfold stamped. revert t. induction s as [|x s IH]; intros [|y t] L E; try discriminate; cbn in *.
  - now injection E as E.
  - injection E as _ E. apply (IH t); auto.
Qed.

Definition plain (name : bytes) (mode : N) : bytes :=
  if mode =? 1 then bs "* " ++ name else bs "<" ++ name ++ bs ">".

Ltac chars E :=
  change (bs " ") with [32] in E; change (bs "* ") with [42; 32] in E; change (bs "<") with [60] in E; change (bs ">") with [62] in E;
  cbn [app] in E.

Section Read.
Variables (P : palette) (r : bytes).
Hypothesis R : p_reset P = 27 :: r.

Lemma author_screen c n m s c' n' m' s' : ~ In 27 n -> ~ In 27 n' -> c = c' ->
  author P c n m ++ bs " " ++ s = author P c' n' m' ++ bs " " ++ s' -> n = n' /\ (m =? 1) = (m' =? 1) /\ s = s'.
Proof.
  intros N N' <- E. unfold author in E. rewrite R in E. destruct (m =? 1) eqn:M, (m' =? 1) eqn:M'; rewrite <- ?app_assoc in E; chars E; try discriminate E.
  - injection E as E. apply app_inv_head in E. cbn [app] in E. apply cut in E as [-> E]; auto. apply app_inv_head in E. now injection E.
  - injection E as E. apply app_inv_head in E. cbn [app] in E. apply cut in E as [-> E]; auto. apply app_inv_head in E. now injection E.
Qed.

Lemma author_apart c n m s c' n' m' s' : apart c c' ->
  author P c n m ++ bs " " ++ s <> author P c' n' m' ++ bs " " ++ s'.
Proof.
  intros A E. unfold author in E. destruct (m =? 1) eqn:M, (m' =? 1) eqn:M'; rewrite <- ?app_assoc in E; chars E; try discriminate E;
  injection E as E; now apply A in E.
Qed.
End Read.

Lemma author_log unesc P c n m s st : unescapes unesc P -> In c [p_nick P; p_gc P; p_pm P] -> ~ In 27 st -> ~ In 27 n ->
  unesc (stamped st (author P c n m ++ bs " " ++ s)) = stamped st (plain n m ++ bs " " ++ unesc s).
Proof.
  intros (_ & U & C) I S N.
  assert (I' : In c [p_nick P; p_gc P; p_pm P; p_reset P; p_mention P]) by (cbn [In] in *; tauto).
  assert (K : forall a t, forallb (fun x => negb (x =? 27)) a = true -> unesc (a ++ t) = a ++ unesc t).
  { intros a t F. apply U. intros X. rewrite forallb_forall in F. apply F in X. discriminate X. }
  unfold stamped, author, plain. rewrite U, K by auto. f_equal. f_equal. destruct (m =? 1); rewrite <- ?app_assoc.
  - rewrite K by reflexivity. rewrite C by auto. rewrite U by auto. rewrite C by (cbn [In]; tauto). now rewrite K.
  - rewrite K by reflexivity. rewrite C by auto. rewrite U by auto. rewrite C by (cbn [In]; tauto). rewrite K by reflexivity. now rewrite K.
Qed.

Lemma plain_inj n m s n' m' s' : ~ In 32 n -> ~ In 32 n' ->
  plain n m ++ bs " " ++ s = plain n' m' ++ bs " " ++ s' -> n = n' /\ (m =? 1) = (m' =? 1) /\ s = s'.
Proof.
  intros N N' E. unfold plain in E. destruct (m =? 1) eqn:M, (m' =? 1) eqn:M'; rewrite <- ?app_assoc in E; chars E; try discriminate E.
  - injection E as E. apply cut in E as [-> E]; auto.
  - injection E as E. change (n ++ 62 :: 32 :: s) with (n ++ [62] ++ 32 :: s) in E. change (n' ++ 62 :: 32 :: s') with (n' ++ [62] ++ 32 :: s') in E.
    rewrite !app_assoc in E. apply cut in E as [E ->].
    + apply app_inj_tail in E as [-> _]. auto.
    + rewrite in_app_iff. cbn. intuition discriminate.
    + rewrite in_app_iff. cbn. intuition discriminate.
Qed.

(** ** Names *)

Definition name_of (order : list bytes) (b : book) (me : bytes) (w : option bytes) : bytes :=
  match w with None => me | Some f => member_name order b f end.

Section Names.
Variables (b : book) (x : N).
Hypothesis R : reach b.
Hypothesis X : x = 27 \/ x = 32.
Hypothesis K : names_ok x b.

Lemma member_plain order f : Permutation order (mkeys b) -> ~ In x (member_name order b f).
Proof using R X K.
  intros Q. unfold member_name. pose proof (proj2 (C31_lookup b R) order f Q) as L.
  destruct (find_identity order b f) as [p|].
  - destruct L as [_ L]. exact (proj1 (K _ _ L)).
  - intros I. apply hex_range in I. lia.
Qed.

Lemma member_inj o o' f g : Permutation o (mkeys b) -> Permutation o' (mkeys b) ->
  Forall is_byte f -> length f = 32%nat -> Forall is_byte g -> length g = 32%nat ->
  member_name o b f = member_name o' b g -> f = g.
Proof using R K.
  intros Q Q' Bf Lf Bg Lg E. unfold member_name in E.
  pose proof (proj2 (C31_lookup b R) o f Q) as L. pose proof (proj2 (C31_lookup b R) o' g Q') as L'.
  destruct (find_identity o b f) as [p|], (find_identity o' b g) as [q|].
  - destruct L as [<- L], L' as [<- L']. rewrite E in L. congruence.
  - exfalso. destruct L as [_ L]. exact (proj2 (K _ _ L) g Lg E).
  - exfalso. destruct L' as [_ L']. exact (proj2 (K _ _ L') f Lf (eq_sym E)).
  - now apply hex_inj.
Qed.

Lemma member_not_me o f me : Permutation o (mkeys b) -> length f = 32%nat -> own_ok x b me -> member_name o b f <> me.
Proof using R.
  intros Q Lf (_ & N & H) E. unfold member_name in E. pose proof (proj2 (C31_lookup b R) o f Q) as L.
  destruct (find_identity o b f) as [p|].
  - destruct L as [_ L]. rewrite E in L. congruence.
  - exact (H f Lf (eq_sym E)).
Qed.
End Names.

(** ** Theorems *)

Lemma author_mode P c n m s c' n' m' s' :
  author P c n m ++ bs " " ++ s = author P c' n' m' ++ bs " " ++ s' -> (m =? 1) = (m' =? 1).
Proof.
  intros E. unfold author in E. destruct (m =? 1), (m' =? 1); auto; rewrite <- ?app_assoc in E; chars E; discriminate E.
Qed.

Lemma mode_iff m m' : (m =? 1) = (m' =? 1) -> (m = 1 <-> m' = 1).
Proof. destruct (N.eqb_spec m 1), (N.eqb_spec m' 1); intros; try discriminate; tauto. Qed.

Lemma group_shown_author P upper me o b c w g l : group_shown P upper me o b c w g = Some l ->
  exists s, l = author P (match w with None => p_nick P | Some _ => p_gc P end) (name_of o b me w) (GroupMessage_Mode g) ++ bs " " ++ s.
Proof.
  destruct w as [f|]; cbn [group_shown name_of]; intros H.
  - unfold group_line in H. destruct (o_shown _) as [s|]; [|discriminate]. injection H as <-. now exists s.
  - injection H as <-. now eexists.
Qed.

(** In a group's window, with times of the same length in front, equal lines are by the same
    person, and both or neither a "/me". *)
Theorem C83_screen : forall P r upper me b o o' c c' w w' g g' st st' l l',
  p_reset P = 27 :: r -> reach b -> Permutation o (mkeys b) -> Permutation o' (mkeys b) ->
  names_ok 27 b -> apart (p_nick P) (p_gc P) \/ p_nick P = p_gc P /\ own_ok 27 b me ->
  member_ok w -> member_ok w' -> length st = length st' ->
  group_shown P upper me o b c w g = Some l -> group_shown P upper me o' b c' w' g' = Some l' ->
  stamped st l = stamped st' l' ->
  w = w' /\ (GroupMessage_Mode g = 1 <-> GroupMessage_Mode g' = 1).
Proof.
  intros P r upper me b o o' c c' w w' g g' st st' l l' HR Rb Q Q' N A W W' L H H' E. apply stamped_inj in E; auto.
  apply group_shown_author in H as (s & ->), H' as (s' & ->). split; [|now apply mode_iff, (author_mode _ _ _ _ _ _ _ _ _ E)].
  assert (X : (27 = 27 \/ 27 = 32)) by auto.
  destruct w as [f|], w' as [f'|]; cbn [name_of member_ok] in *; auto.
  - apply (author_screen P r HR) in E as (E & _); auto; try (now apply (member_plain b 27)).
    f_equal. destruct W, W'. now apply (member_inj b 27 Rb N o o').
  - exfalso. destruct A as [A|[C A]].
    + symmetry in E. now apply (author_apart P) in E.
    + apply (author_screen P r HR) in E as (E & _); auto; [|now apply (member_plain b 27)|apply A].
      destruct W. now apply (member_not_me b 27 Rb o f me) in E.
  - exfalso. destruct A as [A|[C A]].
    + now apply (author_apart P) in E.
    + apply (author_screen P r HR) in E as (E & _); auto; [|apply A|now apply (member_plain b 27)].
      destruct W'. symmetry in E. now apply (member_not_me b 27 Rb o' f' me) in E.
Qed.
Print Assumptions C83_screen.

(** In the log, if there are no blanks in the names. *)
Theorem C83_log : forall unesc P upper me b o o' c c' w w' g g' st st' l l',
  unescapes unesc P -> reach b -> Permutation o (mkeys b) -> Permutation o' (mkeys b) ->
  names_ok 27 b -> names_ok 32 b -> own_ok 27 b me -> own_ok 32 b me ->
  member_ok w -> member_ok w' -> length st = length st' -> ~ In 27 st -> ~ In 27 st' ->
  group_shown P upper me o b c w g = Some l -> group_shown P upper me o' b c' w' g' = Some l' ->
  unesc (stamped st l) = unesc (stamped st' l') ->
  w = w' /\ (GroupMessage_Mode g = 1 <-> GroupMessage_Mode g' = 1).
Proof.
  intros unesc P upper me b o o' c c' w w' g g' st st' l l' U Rb Q Q' N N' O O' W W' L S S' H H' E.
  apply group_shown_author in H as (s & ->), H' as (s' & ->).
  assert (X : (27 = 27 \/ 27 = 32) /\ (32 = 27 \/ 32 = 32)) by auto. destruct X as [X X'].
  rewrite author_log in E; auto;
    [rewrite author_log in E; auto; [|destruct w'; cbn [In]; tauto|destruct w'; [now apply (member_plain b 27)|apply O]]
    |destruct w; cbn [In]; tauto|destruct w; [now apply (member_plain b 27)|apply O]].
  apply stamped_inj in E; auto. apply plain_inj in E as (E & M & _);
    [|destruct w; [now apply (member_plain b 32)|apply O']|destruct w'; [now apply (member_plain b 32)|apply O']].
  split; [|now apply mode_iff].
  destruct w as [f|], w' as [f'|]; cbn [name_of member_ok] in *; auto.
  - f_equal. destruct W, W'. now apply (member_inj b 27 Rb N o o').
  - destruct W. now apply (member_not_me b 27 Rb o f me) in E.
  - destruct W'. symmetry in E. now apply (member_not_me b 27 Rb o' f' me) in E.
Qed.
Print Assumptions C83_log.

(** Whatever anybody is called: in different colours nobody's message looks like one's own,
    in a group or in a contact's window. *)
Theorem C83_own : forall P upper me o b c from gm w mode text mode' text' st st' l,
  length st = length st' ->
  (apart (p_nick P) (p_gc P) -> group_line P upper me o b c from gm = Some l ->
   stamped st (own_line P me mode text) <> stamped st' l) /\
  (apart (p_nick P) (p_pm P) ->
   stamped st (own_line P me mode text) <> stamped st' (pm_line P w mode' text')).
Proof.
  intros P upper me o b c from gm w mode text mode' text' st st' l L. split.
  - intros A H E. apply stamped_inj in E; auto. unfold group_line in H. destruct (o_shown _); [|discriminate]. injection H as <-.
    now apply (author_apart P) in E.
  - intros A E. apply stamped_inj in E; auto. now apply (author_apart P) in E.
Qed.
Print Assumptions C83_own.

(** In a contact's window the line also has the text as it was. *)
Theorem C83_private : forall P r me w mine mine' mode mode' text text' st st',
  p_reset P = 27 :: r -> length st = length st' ->
  apart (p_nick P) (p_pm P) \/ p_nick P = p_pm P /\ w_nick w <> me /\ ~ In 27 (w_nick w) /\ ~ In 27 me ->
  stamped st (private_shown P me w mine mode text) = stamped st' (private_shown P me w mine' mode' text') ->
  mine = mine' /\ (mode = 1 <-> mode' = 1) /\ text = text'.
Proof.
  intros P r me w mine mine' mode mode' text text' st st' HR L A E. apply stamped_inj in E; auto.
  assert (G : forall c n, author P c n mode ++ bs " " ++ text = author P c n mode' ++ bs " " ++ text' -> (mode = 1 <-> mode' = 1) /\ text = text').
  { intros c n X. pose proof (author_mode _ _ _ _ _ _ _ _ _ X) as M. split; [now apply mode_iff|].
    unfold author in X. rewrite M in X. apply app_inv_head in X. now apply app_inv_head in X. }
  destruct mine, mine'; cbn [private_shown] in E.
  - split; auto. exact (G _ _ E).
  - exfalso. destruct A as [A|(C & A1 & A2 & A3)]; [now apply (author_apart P) in E|].
    apply (author_screen P r HR) in E as (E & _); auto.
  - exfalso. symmetry in E. destruct A as [A|(C & A1 & A2 & A3)]; [now apply (author_apart P) in E|].
    apply (author_screen P r HR) in E as (E & _); auto.
  - split; auto. exact (G _ _ E).
Qed.
Print Assumptions C83_private.

Theorem C83_private_log : forall unesc P me w mine mine' mode mode' text text' st st',
  unescapes unesc P -> length st = length st' -> ~ In 27 st -> ~ In 27 st' ->
  w_nick w <> me -> ~ In 27 (w_nick w) -> ~ In 27 me -> ~ In 32 (w_nick w) -> ~ In 32 me ->
  ~ In 27 text -> ~ In 27 text' ->
  unesc (stamped st (private_shown P me w mine mode text)) = unesc (stamped st' (private_shown P me w mine' mode' text')) ->
  mine = mine' /\ (mode = 1 <-> mode' = 1) /\ text = text'.
Proof.
  intros unesc P me w mine mine' mode mode' text text' st st' U L S S' D N1 N2 B1 B2 T T' E.
  assert (V : forall t, ~ In 27 t -> unesc t = t).
  { intros t I. destruct U as (U0 & U & _). rewrite <- (app_nil_r t) at 1. rewrite U, U0, app_nil_r; auto. }
  assert (F : forall x m t u, ~ In 27 t -> ~ In 27 u -> unesc (stamped u (private_shown P me w x m t)) =
    stamped u (plain (if x : bool then me else w_nick w) m ++ bs " " ++ t)).
  { intros x m t u I J. destruct x; cbn [private_shown]; unfold own_line, pm_line; rewrite author_log, V; auto; cbn [In]; tauto. }
  rewrite !F in E by auto. apply stamped_inj in E; auto. apply plain_inj in E as (E & M & ->); [|destruct mine; auto|destruct mine'; auto].
  split; [|split; [now apply mode_iff|auto]]. destruct mine, mine'; congruence.
Qed.
Print Assumptions C83_private_log.

(** ** What names can do *)

Definition called (id n : bytes) : PublicIdentity := mkPublicIdentity [] n [] [] id [] [].

(** A contact may have one's own nick: the client files it without a word, and the log is the
    same for both; if the colours are the same, so is the screen. *)
Theorem C83_self_refuted : forall unesc P self me id, unescapes unesc P -> ~ In 27 me -> self <> id ->
  exists b, reach b /\ book_add self [] (called id me) = Some (b, false) /\
  forall upper o c gm st, Permutation o (mkeys b) -> ~ In 27 st ->
  o_shown (fst (handle_message upper (p_mention P) (p_reset P) me c id gm)) = Some (GroupMessage_Message gm) ->
  exists l l', group_shown P upper me o b c (Some id) gm = Some l /\ group_shown P upper me o b c None gm = Some l' /\
    unesc (stamped st l) = unesc (stamped st l') /\ (p_nick P = p_gc P -> l = l').
Proof.
  intros unesc P self me id U N D. exists [(me, called id me)]. split; [|split].
  - exact (R_add [] (called id me) _ _ _ R_new eq_refl).
  - unfold book_add. change (ident (called id me)) with id. destruct (eqb_spec self id); [contradiction|reflexivity].
  - intros upper o c gm st Q S H. unfold group_shown, group_line. rewrite H.
    cbn [mkeys map fst] in Q. apply Permutation_sym, Permutation_length_1_inv in Q. subst o. unfold member_name.
    cbn [find_identity mget]. rewrite eqb_refl. change (ident (called id me)) with id. rewrite eqb_refl. change (nick (called id me)) with me.
    do 2 eexists. split; [reflexivity|]. split; [reflexivity|]. unfold own_line. split; [|now intros ->].
    rewrite !author_log; auto; cbn [In]; tauto.
Qed.
Print Assumptions C83_self_refuted.

Lemma two a a' i j : a <> a' -> i <> j ->
  let b := [(a, called i a); (a', called j a')] in
  reach b /\ find_nick b a = Some (called i a) /\ find_nick b a' = Some (called j a') /\
  forall o, Permutation o (mkeys b) -> member_name o b i = a /\ member_name o b j = a'.
Proof.
  intros D I b.
  assert (G : find_nick b a = Some (called i a) /\ find_nick b a' = Some (called j a')).
  { unfold b, find_nick. cbn [mget]. rewrite !eqb_refl. split; auto. destruct (eqb_spec a' a); [congruence|auto]. }
  assert (R : reach b).
  { eapply (R_add [(a, called i a)] (called j a')).
    - exact (R_add [] (called i a) _ _ _ R_new eq_refl).
    - unfold add. cbn [length pick_nick mget nick called PublicIdentity_Nick]. destruct (eqb_spec a' a); [congruence|].
      cbn [mset nick called PublicIdentity_Nick]. destruct (eqb_spec a' a); [congruence|]. reflexivity. }
  split; auto. split; [apply G|]. split; [apply G|]. intros o Q. destruct (C31_lookup b R) as [K L].
  assert (M : forall n p, find_nick b n = Some p -> p = called i a \/ p = called j a').
  { intros n p. unfold b, find_nick. cbn [mget]. destruct (eqb n a); [intros [= <-]; auto|]. destruct (eqb n a'); [intros [= <-]; auto|discriminate]. }
  split; unfold member_name.
  - specialize (L o i Q). destruct (find_identity o b i) as [p|].
    + destruct L as [L1 L2]. destruct (M _ _ L2) as [->| ->]; [reflexivity|]. cbn in L1. congruence.
    + exfalso. exact (L _ _ (proj1 G) eq_refl).
  - specialize (L o j Q). destruct (find_identity o b j) as [p|].
    + destruct L as [L1 L2]. destruct (M _ _ L2) as [->| ->]; [cbn in L1; congruence|reflexivity].
    + exfalso. exact (L _ _ (proj2 G) eq_refl).
Qed.

Lemma longer (a s : bytes) : s <> [] -> a <> a ++ s.
Proof. intros H E. apply (f_equal (@length N)) in E. rewrite app_length in E. destruct s; [congruence|cbn in E; lia]. Qed.

(** A contact may have in its nick what ends a nick: in the log ">" and a blank.  Then two
    contacts saying different things make one line. *)
Theorem C83_blank_refuted : forall unesc P a x i j, unescapes unesc P -> ~ In 27 a -> ~ In 27 x -> i <> j ->
  exists b, reach b /\ find_nick b a = Some (called i a) /\
  find_nick b (a ++ bs "> " ++ x) = Some (called j (a ++ bs "> " ++ x)) /\
  forall upper me o c c' gm gm' st, Permutation o (mkeys b) -> ~ In 27 st ->
  GroupMessage_Mode gm <> 1 -> GroupMessage_Mode gm' <> 1 ->
  GroupMessage_Message gm = x ++ bs "> " ++ GroupMessage_Message gm' ->
  o_shown (fst (handle_message upper (p_mention P) (p_reset P) me c i gm)) = Some (GroupMessage_Message gm) ->
  o_shown (fst (handle_message upper (p_mention P) (p_reset P) me c' j gm')) = Some (GroupMessage_Message gm') ->
  exists l l', group_shown P upper me o b c (Some i) gm = Some l /\ group_shown P upper me o b c' (Some j) gm' = Some l' /\
    unesc (stamped st l) = unesc (stamped st l').
Proof.
  intros unesc P a x i j U Na Nx D. destruct (two a (a ++ bs "> " ++ x) i j) as (R & F1 & F2 & M); auto; [apply longer; discriminate|].
  eexists. split; [exact R|]. split; [exact F1|]. split; [exact F2|].
  intros upper me o c c' gm gm' st Q S M1 M2 T H1 H2. destruct (M o Q) as [E1 E2]. cbn [group_shown]. unfold group_line. rewrite H1, H2, E1, E2.
  do 2 eexists. split; [reflexivity|]. split; [reflexivity|].
  assert (Nb : ~ In 27 (bs "> ")) by (cbn; intuition discriminate).
  rewrite !author_log; auto; try (cbn [In]; tauto); [|rewrite !in_app_iff; tauto].
  rewrite T. apply N.eqb_neq in M1, M2. unfold plain. rewrite M1, M2.
  destruct U as (_ & U & _). rewrite (U x) by auto. rewrite (U (bs "> ")) by auto. unfold stamped. rewrite <- !app_assoc. reflexivity.
Qed.
Print Assumptions C83_blank_refuted.

(** On the screen RESET, ">" and a blank. *)
Theorem C83_reset_refuted : forall P a x i j, i <> j ->
  let n := a ++ p_reset P ++ bs "> " ++ x in
  exists b, reach b /\ find_nick b a = Some (called i a) /\ find_nick b n = Some (called j n) /\
  forall upper me o c c' gm gm', Permutation o (mkeys b) ->
  GroupMessage_Mode gm <> 1 -> GroupMessage_Mode gm' <> 1 ->
  GroupMessage_Message gm = x ++ p_reset P ++ bs "> " ++ GroupMessage_Message gm' ->
  o_shown (fst (handle_message upper (p_mention P) (p_reset P) me c i gm)) = Some (GroupMessage_Message gm) ->
  o_shown (fst (handle_message upper (p_mention P) (p_reset P) me c' j gm')) = Some (GroupMessage_Message gm') ->
  exists l, group_shown P upper me o b c (Some i) gm = Some l /\ group_shown P upper me o b c' (Some j) gm' = Some l.
Proof.
  intros P a x i j D n. destruct (two a n i j) as (R & F1 & F2 & M); auto.
  { apply longer. destruct (p_reset P); discriminate. }
  eexists. split; [exact R|]. split; [exact F1|]. split; [exact F2|].
  intros upper me o c c' gm gm' Q M1 M2 T H1 H2. destruct (M o Q) as [E1 E2]. cbn [group_shown]. unfold group_line. rewrite H1, H2, E1, E2.
  eexists. split; [reflexivity|]. f_equal. rewrite T. apply N.eqb_neq in M1, M2. unfold author, n. rewrite M1, M2.
  rewrite <- !app_assoc. reflexivity.
Qed.
Print Assumptions C83_reset_refuted.

(** And a contact may be called what a member who is not a contact is shown as: then both
    make the same lines, on the screen and in the log. *)
Theorem C83_hex_refuted : forall P i f, i <> f ->
  exists b, reach b /\ find_nick b (hex_encode f) = Some (called i (hex_encode f)) /\
  forall upper me o c g gm, Permutation o (mkeys b) ->
  mget (c_groups c) (GroupMessage_Name gm) = Some g -> In i (GroupList_Members g) -> In f (GroupList_Members g) ->
  group_shown P upper me o b c (Some i) gm = group_shown P upper me o b c (Some f) gm.
Proof.
  intros P i f D. exists [(hex_encode f, called i (hex_encode f))]. split; [|split].
  - exact (R_add [] (called i (hex_encode f)) _ _ _ R_new eq_refl).
  - unfold find_nick. cbn [mget]. now rewrite eqb_refl.
  - intros upper me o c g gm Q G Hi Hf. cbn [mkeys map fst] in Q. apply Permutation_sym, Permutation_length_1_inv in Q. subst o.
    apply mem_In in Hi, Hf. unfold group_shown, group_line, handle_message. rewrite G, Hi, Hf.
    unfold member_name. cbn [find_identity mget]. rewrite eqb_refl. change (ident (called i (hex_encode f))) with i. rewrite eqb_refl.
    destruct (eqb_spec i f); [contradiction|]. reflexivity.
Qed.
Print Assumptions C83_hex_refuted.

(** ** Cases *)

(** ESC, a digit and "m" for the colours; escape sequences end at the next "m". *)
Definition paint (d : N) : bytes := [27; d; 109].
Definition paints : palette := mkPalette (paint 49) (paint 50) (paint 51) (paint 48) (paint 53).
Fixpoint scrub (inside : bool) (s : bytes) : bytes :=
  match s with
  | [] => []
  | c :: r => if inside then scrub (negb (c =? 109)) r else if c =? 27 then scrub true r else c :: scrub false r
  end.
Example C83_unescapes_case : unescapes (scrub false) paints.
Proof.
  split; [reflexivity|]. split.
  - induction s as [|x s IH]; intros t N; [reflexivity|]. cbn. destruct (N.eqb_spec x 27) as [->|_]; [exfalso; apply N; now left|].
    f_equal. apply IH. intros I. apply N. now right.
  - intros c t [<-|[<-|[<-|[<-|[<-|[]]]]]]; reflexivity.
Qed.
Example C83_apart_case : apart (p_nick paints) (p_gc paints) /\ apart (p_nick paints) (p_pm paints).
Proof. split; intros s t; discriminate. Qed.

Definition ida : bytes := repeat 1 32.
Definition idb : bytes := repeat 2 32.
Definition idc : bytes := repeat 3 32.
Definition pub : gclient := mkGclient [(bs "pub", mkGroupList (bs "pub") 1 0 [ida; idb; idc])] [] None None [].
Definition friends : book := [(bs "al", called ida (bs "al")); (bs "bo", called idb (bs "bo"))].
Definition say (m : N) (t : bytes) : GroupMessage := mkGroupMessage (bs "pub") 1 t m.

(** The premises of C83_screen and C83_log, for a book of two contacts, and the lines of a
    contact, a member who is not a contact and oneself. *)
Example C83_names_case : reach friends /\ names_ok 27 friends /\ names_ok 32 friends /\
  own_ok 27 friends (bs "me") /\ own_ok 32 friends (bs "me").
Proof.
  assert (H : forall i : bytes, length i = 32%nat -> length (hex_encode i) = 64%nat).
  { intros i L. do 32 (destruct i as [|? i]; [discriminate|]). destruct i; [reflexivity|discriminate]. }
  assert (K : forall n p, find_nick friends n = Some p -> n = bs "al" \/ n = bs "bo").
  { intros n p. unfold friends, find_nick. cbn [mget]. destruct (eqb_spec n (bs "al")); auto. destruct (eqb_spec n (bs "bo")); auto. discriminate. }
  assert (Z : forall n i : bytes, length n = 2%nat -> length i = 32%nat -> n <> hex_encode i).
  { intros n i A B E. apply (f_equal (@length N)) in E. rewrite H, A in E by auto. discriminate. }
  split; [|split; [|split; [|split]]].
  - destruct (two (bs "al") (bs "bo") ida idb) as (R & _); [discriminate|discriminate|exact R].
  - intros n p F. apply K in F as [->| ->]; (split; [cbn; intuition discriminate|intros i; now apply Z]).
  - intros n p F. apply K in F as [->| ->]; (split; [cbn; intuition discriminate|intros i; now apply Z]).
  - split; [cbn; intuition discriminate|]. split; [reflexivity|]. intros i. now apply Z.
  - split; [cbn; intuition discriminate|]. split; [reflexivity|]. intros i. now apply Z.
Qed.
Example C83_lines_case :
  group_shown paints (fun r => r) (bs "me") [bs "bo"; bs "al"] friends pub (Some idb) (say 0 (bs "hi Me")) =
    Some (bs "<" ++ paint 50 ++ bs "bo" ++ paint 48 ++ bs "> hi " ++ paint 53 ++ bs "Me" ++ paint 48) /\
  option_map (scrub false) (group_shown paints (fun r => r) (bs "me") [bs "al"; bs "bo"] friends pub (Some ida) (say 1 (bs "waves"))) =
    Some (bs "* al waves") /\
  option_map (scrub false) (group_shown paints (fun r => r) (bs "me") [bs "al"; bs "bo"] friends pub (Some idc) (say 0 (bs "hi"))) =
    Some (bs "<0303030303030303030303030303030303030303030303030303030303030303> hi") /\
  group_shown paints (fun r => r) (bs "me") [bs "al"; bs "bo"] friends pub None (say 0 (bs "hi")) =
    Some (bs "<" ++ paint 49 ++ bs "me" ++ paint 48 ++ bs "> hi") /\
  private_shown paints (bs "me") (contact_win (called ida (bs "al")) ida) false 0 (bs "hi") =
    bs "<" ++ paint 51 ++ bs "al" ++ paint 48 ++ bs "> hi".
Proof. vm_compute. auto. Qed.

(** The refutations: "bo" is "al> hi", says "x", and al says "hi> x"; a contact called "me". *)
Example C83_blank_case :
  let b := [(bs "al", called ida (bs "al")); (bs "al> hi", called idb (bs "al> hi"))] in
  option_map (scrub false) (group_shown paints (fun r => r) (bs "me") (mkeys b) b pub (Some ida) (say 0 (bs "hi> x"))) = Some (bs "<al> hi> x") /\
  option_map (scrub false) (group_shown paints (fun r => r) (bs "me") (mkeys b) b pub (Some idb) (say 0 (bs "x"))) = Some (bs "<al> hi> x").
Proof. vm_compute. auto. Qed.
Example C83_self_case :
  let b := [(bs "me", called idb (bs "me"))] in
  option_map (scrub false) (group_shown paints (fun r => r) (bs "me") (mkeys b) b pub (Some idb) (say 0 (bs "I quit"))) = Some (bs "<me> I quit") /\
  option_map (scrub false) (group_shown paints (fun r => r) (bs "me") (mkeys b) b pub None (say 0 (bs "I quit"))) = Some (bs "<me> I quit") /\
  o_shown (fst (handle_message (fun r => r) (p_mention paints) (p_reset paints) (bs "me") pub idb (say 0 (bs "I quit")))) = Some (bs "I quit").
Proof. vm_compute. auto. Qed.
