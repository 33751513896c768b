(** Round trip and soundness of the XDR codecs. *)
From Verif Require Import Base XdrModel.

(** * Specification *)

Definition is_byte (b : N) : Prop := (b < 256)%N.

(** Values the codecs are meant for. *)
Definition u32_ok (n : N) : Prop := (n < 2 ^ 32)%N.
Definition u64_ok (n : N) : Prop := (n < 2 ^ 64)%N.
Definition i32_ok (z : Z) : Prop := (- 2 ^ 31 <= z < 2 ^ 31)%Z.
Definition i64_ok (z : Z) : Prop := (- 2 ^ 63 <= z < 2 ^ 63)%Z.
Definition size_ok (n : N) (s : bytes) : Prop := N.of_nat (length s) = n.

(** A string that fits the limit (0 is no limit). *)
Definition str_ok (lim : N) (s : bytes) : Prop :=
  let n := N.of_nat (length s) in
  (n + pad_len n <= max_int32)%N /\ (lim = 0%N \/ (n <= lim)%N).
Definition list_ok {A} (size : N) (ok : N -> A -> Prop) (lim : N) (l : list A) : Prop :=
  let n := N.of_nat (length l) in
  (n <= max_int32)%N /\ (lim = 0%N \/ (n * size <= lim)%N) /\ Forall (ok lim) l.

(** Decoding an encoding, whatever follows it, gives back the value and leaves
    exactly what follows. *)
Definition round_trips {A} (c : codec A) (ok : N -> A -> Prop) : Prop :=
  forall lim a rest, ok lim a -> dec c lim (enc c a ++ rest) = Some (a, rest).

(** Whatever bytes are decoded, the value found is within the limits, and as many
    bytes are used as the value's own encoding has. *)
Definition decodes_sound {A} (c : codec A) (ok : N -> A -> Prop) : Prop :=
  forall lim b a rest, Forall is_byte b -> dec c lim b = Some (a, rest) ->
    ok lim a /\ exists used, b = used ++ rest /\ length used = length (enc c a).

(** An encoding cut short anywhere is refused. *)
Definition truncated_refused {A} (c : codec A) (ok : N -> A -> Prop) : Prop :=
  forall lim a kept lost, ok lim a -> enc c a = kept ++ lost -> lost <> [] ->
    dec c lim kept = None.

Definition faithful {A} (c : codec A) (ok : N -> A -> Prop) : Prop :=
  round_trips c ok /\ decodes_sound c ok /\ truncated_refused c ok.

(** * Proof *)

(** More input does not change what is decoded. *)
Definition extends {A} (c : codec A) : Prop :=
  forall lim b a r more, dec c lim b = Some (a, r) -> dec c lim (b ++ more) = Some (a, r ++ more).

Definition good {A} (c : codec A) (ok : N -> A -> Prop) : Prop :=
  round_trips c ok /\ decodes_sound c ok /\ extends c.

Lemma good_faithful {A} (c : codec A) ok : good c ok -> faithful c ok.
Proof.
  intros (R & S & X). split; [|split]; auto.
  intros lim a p q Ha E Hq. destruct (dec c lim p) as [[a' r]|] eqn:Ed; auto. exfalso.
  apply (X _ _ _ _ q) in Ed. rewrite <- E in Ed.
  pose proof (R lim a [] Ha) as H. rewrite app_nil_r, Ed in H. injection H as _ H.
  apply app_eq_nil in H. tauto.
Qed.

(** * Big endian *)

Lemma be_length k n : length (be k n) = k.
Proof. induction k; simpl; auto. Qed.

Lemma be_bytes k n : Forall is_byte (be k n).
Proof. induction k; simpl; constructor; auto. apply N.mod_lt. lia. Qed.

Lemma of_be_acc b : forall a, fold_left (fun a x => a * 256 + x)%N b a
  = (a * 2 ^ (8 * N.of_nat (length b)) + of_be b)%N.
Proof.
  unfold of_be. induction b as [|x b IH]; intros a.
  - simpl. lia.
  - cbn [fold_left length]. rewrite IH. rewrite (IH (0 * 256 + x)%N).
    replace (8 * N.of_nat (S (length b)))%N with (8 * N.of_nat (length b) + 8)%N by lia.
    rewrite N.pow_add_r. change (2 ^ 8)%N with 256%N. lia.
Qed.

Lemma of_be_cons x b : of_be (x :: b) = (x * 2 ^ (8 * N.of_nat (length b)) + of_be b)%N.
Proof. unfold of_be at 1. cbn [fold_left]. rewrite of_be_acc. lia. Qed.

Lemma of_be_be k n : of_be (be k n) = (n mod 2 ^ (8 * N.of_nat k))%N.
Proof.
  induction k as [|k IH].
  - simpl be. change (2 ^ (8 * N.of_nat 0))%N with 1%N. rewrite N.mod_1_r. reflexivity.
  - cbn [be]. rewrite of_be_cons, be_length, IH.
    replace (8 * N.of_nat (S k))%N with (8 * N.of_nat k + 8)%N by lia.
    rewrite N.pow_add_r. change (2 ^ 8)%N with 256%N.
    rewrite N.mod_mul_r by (try apply N.pow_nonzero; lia). lia.
Qed.

Lemma of_be_lt b : Forall is_byte b -> (of_be b < 2 ^ (8 * N.of_nat (length b)))%N.
Proof.
  induction 1 as [|x b Hx _ IH].
  - reflexivity.
  - rewrite of_be_cons. cbn [length].
    replace (8 * N.of_nat (S (length b)))%N with (8 * N.of_nat (length b) + 8)%N by lia.
    rewrite N.pow_add_r. change (2 ^ 8)%N with 256%N. unfold is_byte in Hx.
    set (P := (2 ^ (8 * N.of_nat (length b)))%N) in *.
    assert (x * P <= 255 * P)%N by (apply N.mul_le_mono_r; lia). lia.
Qed.

(** * take *)

Lemma take_app n x r : N.of_nat (length x) = n -> take n (x ++ r) = Some (x, r).
Proof.
  intros <-. unfold take. rewrite app_length.
  destruct (N.ltb_spec (N.of_nat (length x + length r)) (N.of_nat (length x))); [lia|].
  rewrite Nat2N.id, firstn_app, skipn_app, firstn_all, skipn_all.
  replace (length x - length x) with 0 by lia. simpl. now rewrite app_nil_r.
Qed.

Lemma take_Some n b x r : take n b = Some (x, r) ->
  b = x ++ r /\ N.of_nat (length x) = n.
Proof.
  unfold take. destruct (N.ltb_spec (N.of_nat (length b)) n); [discriminate|].
  intros E. injection E as <- <-. split; [symmetry; apply firstn_skipn|].
  rewrite firstn_length. lia.
Qed.

Lemma take_extends n b x r more : take n b = Some (x, r) -> take n (b ++ more) = Some (x, r ++ more).
Proof.
  intros H. apply take_Some in H. destruct H as [-> H]. rewrite <- app_assoc. now apply take_app.
Qed.

Lemma Forall_app_l {A} (P : A -> Prop) x r : Forall P (x ++ r) -> Forall P x /\ Forall P r.
Proof. intros H. apply Forall_app in H. exact H. Qed.

(** * Codecs *)

Lemma good_uint32 : good xuint32 (fun _ => u32_ok).
Proof.
  split; [|split].
  - intros lim a r H. unfold u32_ok in H. cbn [dec enc xuint32].
    rewrite take_app by now rewrite be_length.
    rewrite of_be_be. change (2 ^ (8 * N.of_nat 4))%N with (2 ^ 32)%N.
    now rewrite N.mod_small.
  - intros lim b a r Hb E. cbn [dec xuint32] in E.
    destruct (take 4 b) as [[x s]|] eqn:Et; [|discriminate]. injection E as <- <-.
    apply take_Some in Et. destruct Et as [-> Hl]. apply Forall_app_l in Hb. destruct Hb as [Hx _].
    split.
    + unfold u32_ok. pose proof (of_be_lt x Hx). replace (8 * N.of_nat (length x))%N with 32%N in H by lia. exact H.
    + exists x. split; auto. cbn [enc xuint32]. rewrite be_length. lia.
  - intros lim b a r more E. cbn [dec xuint32] in *.
    destruct (take 4 b) as [[x s]|] eqn:Et; [|discriminate].
    rewrite (take_extends _ _ _ _ more Et). now injection E as <- <-.
Qed.

Lemma good_uint64 : good xuint64 (fun _ => u64_ok).
Proof.
  split; [|split].
  - intros lim a r H. unfold u64_ok in H. cbn [dec enc xuint64].
    rewrite take_app by now rewrite be_length.
    rewrite of_be_be. change (2 ^ (8 * N.of_nat 8))%N with (2 ^ 64)%N.
    now rewrite N.mod_small.
  - intros lim b a r Hb E. cbn [dec xuint64] in E.
    destruct (take 8 b) as [[x s]|] eqn:Et; [|discriminate]. injection E as <- <-.
    apply take_Some in Et. destruct Et as [-> Hl]. apply Forall_app_l in Hb. destruct Hb as [Hx _].
    split.
    + unfold u64_ok. pose proof (of_be_lt x Hx). replace (8 * N.of_nat (length x))%N with 64%N in H by lia. exact H.
    + exists x. split; auto. cbn [enc xuint64]. rewrite be_length. lia.
  - intros lim b a r more E. cbn [dec xuint64] in *.
    destruct (take 8 b) as [[x s]|] eqn:Et; [|discriminate].
    rewrite (take_extends _ _ _ _ more Et). now injection E as <- <-.
Qed.

Lemma twos_round bits z : (0 < bits)%Z -> (- 2 ^ (bits - 1) <= z < 2 ^ (bits - 1))%Z ->
  of_twos bits (to_twos bits z) = z.
Proof.
  intros Hb Hz. unfold of_twos, to_twos.
  assert (E2 : (2 ^ bits = 2 * 2 ^ (bits - 1))%Z).
  { replace bits with (1 + (bits - 1))%Z at 1 by lia. rewrite Z.pow_add_r by lia. lia. }
  assert (Hp : (0 < 2 ^ (bits - 1))%Z) by (apply Z.pow_pos_nonneg; lia).
  pose proof (Z.mod_pos_bound z (2 ^ bits) ltac:(lia)) as Hm.
  rewrite Z2N.id by lia.
  destruct (Z_lt_le_dec z 0) as [Hn|Hn].
  - assert (Em : (z mod 2 ^ bits = z + 2 ^ bits)%Z).
    { symmetry. apply Z.mod_unique with (q := (-1)%Z); lia. }
    rewrite Em. destruct (Z.ltb_spec (z + 2 ^ bits) (2 ^ (bits - 1))); lia.
  - rewrite Z.mod_small by lia. destruct (Z.ltb_spec z (2 ^ (bits - 1))); lia.
Qed.

Lemma to_twos_lt bits z : (0 < bits)%Z -> (Z.of_N (to_twos bits z) < 2 ^ bits)%Z.
Proof.
  intros Hb. unfold to_twos.
  pose proof (Z.mod_pos_bound z (2 ^ bits) ltac:(apply Z.pow_pos_nonneg; lia)). lia.
Qed.

Lemma of_twos_range bits n : (0 < bits)%Z -> (Z.of_N n < 2 ^ bits)%Z ->
  (- 2 ^ (bits - 1) <= of_twos bits n < 2 ^ (bits - 1))%Z.
Proof.
  intros Hb Hn. unfold of_twos.
  assert (E2 : (2 ^ bits = 2 * 2 ^ (bits - 1))%Z).
  { replace bits with (1 + (bits - 1))%Z at 1 by lia. rewrite Z.pow_add_r by lia. lia. }
  destruct (Z.ltb_spec (Z.of_N n) (2 ^ (bits - 1))); lia.
Qed.

Lemma good_int : good xint (fun _ => i32_ok).
Proof.
  split; [|split].
  - intros lim a r H. cbn [dec enc xint].
    rewrite take_app by now rewrite be_length.
    rewrite of_be_be. change (2 ^ (8 * N.of_nat 4))%N with (2 ^ 32)%N.
    rewrite N.mod_small.
    + now rewrite twos_round.
    + pose proof (to_twos_lt 32 a ltac:(lia)). lia.
  - intros lim b a r Hb E. cbn [dec xint] in E.
    destruct (take 4 b) as [[x s]|] eqn:Et; [|discriminate]. injection E as <- <-.
    apply take_Some in Et. destruct Et as [-> Hl]. apply Forall_app_l in Hb. destruct Hb as [Hx _].
    split.
    + unfold i32_ok. apply (of_twos_range 32); [lia|]. pose proof (of_be_lt x Hx).
      replace (8 * N.of_nat (length x))%N with 32%N in H by lia. lia.
    + exists x. split; auto. cbn [enc xint]. rewrite be_length. lia.
  - intros lim b a r more E. cbn [dec xint] in *.
    destruct (take 4 b) as [[x s]|] eqn:Et; [|discriminate].
    rewrite (take_extends _ _ _ _ more Et). now injection E as <- <-.
Qed.

Lemma good_int64 : good xint64 (fun _ => i64_ok).
Proof.
  split; [|split].
  - intros lim a r H. cbn [dec enc xint64].
    rewrite take_app by now rewrite be_length.
    rewrite of_be_be. change (2 ^ (8 * N.of_nat 8))%N with (2 ^ 64)%N.
    rewrite N.mod_small.
    + now rewrite twos_round.
    + pose proof (to_twos_lt 64 a ltac:(lia)). lia.
  - intros lim b a r Hb E. cbn [dec xint64] in E.
    destruct (take 8 b) as [[x s]|] eqn:Et; [|discriminate]. injection E as <- <-.
    apply take_Some in Et. destruct Et as [-> Hl]. apply Forall_app_l in Hb. destruct Hb as [Hx _].
    split.
    + unfold i64_ok. apply (of_twos_range 64); [lia|]. pose proof (of_be_lt x Hx).
      replace (8 * N.of_nat (length x))%N with 64%N in H by lia. lia.
    + exists x. split; auto. cbn [enc xint64]. rewrite be_length. lia.
  - intros lim b a r more E. cbn [dec xint64] in *.
    destruct (take 8 b) as [[x s]|] eqn:Et; [|discriminate].
    rewrite (take_extends _ _ _ _ more Et). now injection E as <- <-.
Qed.

Lemma good_bool : good xbool (fun _ _ => True).
Proof.
  split; [|split].
  - intros lim a r _. cbn [dec enc xbool]. rewrite take_app by now rewrite be_length.
    destruct a; reflexivity.
  - intros lim b a r Hb E. cbn [dec xbool] in E.
    destruct (take 4 b) as [[x s]|] eqn:Et; [|discriminate].
    apply take_Some in Et. destruct Et as [-> Hl]. split; auto.
    exists x. cbn [enc xbool]. rewrite be_length. split; [|lia].
    destruct (N.eqb (of_be x) 0); [now injection E as _ <-|].
    destruct (N.eqb (of_be x) 1); [now injection E as _ <-|discriminate].
  - intros lim b a r more E. cbn [dec xbool] in *.
    destruct (take 4 b) as [[x s]|] eqn:Et; [|discriminate].
    rewrite (take_extends _ _ _ _ more Et).
    destruct (N.eqb (of_be x) 0); [now injection E as <- <-|].
    destruct (N.eqb (of_be x) 1); [now injection E as <- <-|discriminate].
Qed.

Lemma enc_fixed_length s :
  N.of_nat (length (enc_fixed s)) = (N.of_nat (length s) + pad_len (N.of_nat (length s)))%N.
Proof. unfold enc_fixed. rewrite app_length, repeat_length. lia. Qed.

Lemma dec_fixed_enc s r :
  let n := N.of_nat (length s) in
  (n + pad_len n <= max_int32)%N -> dec_fixed n (enc_fixed s ++ r) = Some (s, r).
Proof.
  cbv zeta. intros H. unfold dec_fixed.
  destruct (N.ltb_spec max_int32 (N.of_nat (length s) + pad_len (N.of_nat (length s)))); [lia|].
  rewrite take_app by apply enc_fixed_length.
  unfold enc_fixed. rewrite Nat2N.id, firstn_app, firstn_all.
  replace (length s - length s) with 0 by lia. simpl. now rewrite app_nil_r.
Qed.

Lemma dec_fixed_Some n b s r : dec_fixed n b = Some (s, r) ->
  N.of_nat (length s) = n /\ (n + pad_len n <= max_int32)%N /\
  exists used, b = used ++ r /\ length used = length (enc_fixed s).
Proof.
  unfold dec_fixed. destruct (N.ltb_spec max_int32 (n + pad_len n)); [discriminate|].
  destruct (take (n + pad_len n) b) as [[x t]|] eqn:Et; [|discriminate].
  intros E. injection E as <- <-. apply take_Some in Et. destruct Et as [-> Hl].
  assert (El : N.of_nat (length (firstn (N.to_nat n) x)) = n) by (rewrite firstn_length; lia).
  split; auto. split; auto. exists x. split; auto.
  pose proof (enc_fixed_length (firstn (N.to_nat n) x)) as H1. rewrite El in H1. lia.
Qed.

Lemma dec_fixed_extends n b s r more : dec_fixed n b = Some (s, r) ->
  dec_fixed n (b ++ more) = Some (s, r ++ more).
Proof.
  unfold dec_fixed. destruct (max_int32 <? n + pad_len n)%N; [discriminate|].
  destruct (take (n + pad_len n) b) as [[x t]|] eqn:Et; [|discriminate].
  rewrite (take_extends _ _ _ _ more Et). intros E. now injection E as <- <-.
Qed.

Lemma good_fixed n : (n + pad_len n <= max_int32)%N -> good (xfixed n) (fun _ => size_ok n).
Proof.
  intros Hn. split; [|split].
  - intros lim a r H. unfold size_ok in H. cbn [dec enc xfixed]. subst n. now apply dec_fixed_enc.
  - intros lim b a r Hb E. cbn [dec xfixed] in E. apply dec_fixed_Some in E.
    destruct E as (E1 & _ & E2). split; auto.
  - intros lim b a r more E. cbn [dec xfixed] in *. now apply dec_fixed_extends.
Qed.

Lemma good_opaque : good xopaque str_ok.
Proof.
  split; [|split].
  - intros lim a r [H1 H2]. cbn [dec enc xopaque]. rewrite <- app_assoc.
    rewrite take_app by now rewrite be_length.
    rewrite of_be_be. change (2 ^ (8 * N.of_nat 4))%N with (2 ^ 32)%N.
    assert (Hm : (N.of_nat (length a) < 2 ^ 32)%N) by (unfold max_int32 in *; lia).
    rewrite N.mod_small by auto. cbv zeta.
    destruct (N.ltb_spec max_int32 (N.of_nat (length a))); [lia|].
    destruct (N.eqb_spec lim 0).
    + cbn [negb andb orb]. now apply dec_fixed_enc.
    + destruct (N.ltb_spec lim (N.of_nat (length a))); [lia|]. cbn [negb andb orb].
      now apply dec_fixed_enc.
  - intros lim b a r Hb E. cbn [dec xopaque] in E.
    destruct (take 4 b) as [[x s]|] eqn:Et; [|discriminate]. cbv zeta in E.
    apply take_Some in Et. destruct Et as [-> Hl].
    destruct (N.ltb_spec max_int32 (of_be x)); [discriminate|]. cbn [orb] in E.
    destruct (negb (N.eqb lim 0) && (lim <? of_be x)%N) eqn:El; [discriminate|].
    apply dec_fixed_Some in E. destruct E as (E1 & E2 & u & -> & E3).
    split.
    + unfold str_ok. cbv zeta. rewrite E1. split; auto. lia.
    + exists (x ++ u). split; [now rewrite app_assoc|].
      cbn [enc xopaque]. rewrite !app_length, E3, be_length. lia.
  - intros lim b a r more E. cbn [dec xopaque] in *.
    destruct (take 4 b) as [[x s]|] eqn:Et; [|discriminate].
    rewrite (take_extends _ _ _ _ more Et). cbv zeta in *.
    destruct ((max_int32 <? of_be x)%N || (negb (N.eqb lim 0) && (lim <? of_be x)%N)); [discriminate|].
    now apply dec_fixed_extends.
Qed.

Lemma good_pair {A B} (a : codec A) (b : codec B) oka okb :
  good a oka -> good b okb ->
  good (xpair a b) (fun lim p => oka lim (fst p) /\ okb lim (snd p)).
Proof.
  intros (Ra & Sa & Xa) (Rb & Sb & Xb). split; [|split].
  - intros lim [x y] r [Hx Hy]. cbn [dec enc xpair fst snd] in *.
    rewrite <- app_assoc, Ra by auto. now rewrite Rb.
  - intros lim s [x y] r Hs E. cbn [dec xpair] in E.
    destruct (dec a lim s) as [[x' t]|] eqn:Ea; [|discriminate].
    destruct (dec b lim t) as [[y' t']|] eqn:Eb; [|discriminate].
    injection E as <- <- <-. apply Sa in Ea; auto. destruct Ea as (Oa & u & -> & Hu).
    apply Forall_app_l in Hs. destruct Hs as [_ Ht].
    apply Sb in Eb; auto. destruct Eb as (Ob & v & -> & Hv).
    split; auto. exists (u ++ v). split; [now rewrite app_assoc|].
    cbn [enc xpair fst snd]. rewrite !app_length. lia.
  - intros lim s [x y] r more E. cbn [dec xpair] in *.
    destruct (dec a lim s) as [[x' t]|] eqn:Ea; [|discriminate].
    destruct (dec b lim t) as [[y' t']|] eqn:Eb; [|discriminate].
    rewrite (Xa _ _ _ _ more Ea), (Xb _ _ _ _ more Eb). now injection E as <- <- <-.
Qed.

Lemma good_iso {A B} (f : A -> B) (g : B -> A) c ok ok' :
  good c ok -> (forall b, f (g b) = b) -> (forall a, g (f a) = a) ->
  (forall lim b, ok' lim b <-> ok lim (g b)) ->
  good (xiso f g c) ok'.
Proof.
  intros (R & S & X) Hfg Hgf Hok. split; [|split].
  - intros lim b r Hb. cbn [dec enc xiso]. rewrite R by now apply Hok. now rewrite Hfg.
  - intros lim s b r Hs E. cbn [dec xiso] in E.
    destruct (dec c lim s) as [[x t]|] eqn:Ec; [|discriminate]. injection E as <- <-.
    apply S in Ec; auto. destruct Ec as (O & u & -> & Hu). split.
    + apply Hok. now rewrite Hgf.
    + exists u. split; auto. cbn [enc xiso]. now rewrite Hgf.
  - intros lim s b r more E. cbn [dec xiso] in *.
    destruct (dec c lim s) as [[x t]|] eqn:Ec; [|discriminate].
    rewrite (X _ _ _ _ more Ec). now injection E as <- <-.
Qed.

Lemma good_unit : good xunit (fun _ _ => True).
Proof.
  split; [|split].
  - intros lim [] r _. reflexivity.
  - intros lim b [] r _ E. injection E as <-. split; auto. exists []; auto.
  - intros lim b [] r more E. injection E as <-. reflexivity.
Qed.

Lemma dec_many_enc {A} (c : codec A) ok lim l : forall r,
  round_trips c ok -> Forall (ok lim) l ->
  dec_many c lim (length l) (concat (map (enc c) l) ++ r) = Some (l, r).
Proof.
  induction l as [|x l IH]; intros r R H; [reflexivity|].
  inversion H; subst. cbn [length map concat dec_many]. rewrite <- app_assoc, R by auto.
  now rewrite IH.
Qed.

Lemma dec_many_Some {A} (c : codec A) ok lim k : forall b l r,
  decodes_sound c ok -> Forall is_byte b -> dec_many c lim k b = Some (l, r) ->
  length l = k /\ Forall (ok lim) l /\
  exists used, b = used ++ r /\ length used = length (concat (map (enc c) l)).
Proof.
  induction k as [|k IH]; intros b l r S Hb E; cbn [dec_many] in E.
  - injection E as <- <-. split; auto. split; auto. exists []; auto.
  - destruct (dec c lim b) as [[x t]|] eqn:Ec; [|discriminate].
    destruct (dec_many c lim k t) as [[l' t']|] eqn:Ek; [|discriminate].
    injection E as <- <-. apply S in Ec; auto. destruct Ec as (O & u & -> & Hu).
    apply Forall_app_l in Hb. destruct Hb as [_ Ht].
    destruct (IH _ _ _ S Ht Ek) as (H1 & H2 & v & -> & Hv).
    split; [simpl; lia|]. split; auto. exists (u ++ v). split; [now rewrite app_assoc|].
    cbn [map concat]. rewrite !app_length. lia.
Qed.

Lemma dec_many_extends {A} (c : codec A) lim k : forall b l r more,
  extends c -> dec_many c lim k b = Some (l, r) ->
  dec_many c lim k (b ++ more) = Some (l, r ++ more).
Proof.
  induction k as [|k IH]; intros b l r more X E; cbn [dec_many] in *.
  - now injection E as <- <-.
  - destruct (dec c lim b) as [[x t]|] eqn:Ec; [|discriminate].
    destruct (dec_many c lim k t) as [[l' t']|] eqn:Ek; [|discriminate].
    rewrite (X _ _ _ _ more Ec), (IH _ _ _ more X Ek). now injection E as <- <-.
Qed.

Lemma good_list {A} size (c : codec A) ok : good c ok -> good (xlist size c) (list_ok size ok).
Proof.
  intros (R & S & X). split; [|split].
  - intros lim l r (H1 & H2 & H3). cbn [dec enc xlist]. rewrite <- app_assoc.
    rewrite take_app by now rewrite be_length.
    rewrite of_be_be. change (2 ^ (8 * N.of_nat 4))%N with (2 ^ 32)%N.
    assert (Hm : (N.of_nat (length l) < 2 ^ 32)%N) by (unfold max_int32 in *; lia).
    rewrite N.mod_small by auto. cbv zeta.
    destruct (N.ltb_spec max_int32 (N.of_nat (length l))); [lia|].
    assert (E : negb (N.eqb lim 0) && (lim <? N.of_nat (length l) * size)%N = false).
    { destruct (N.eqb_spec lim 0); auto. destruct H2; [congruence|].
      destruct (N.ltb_spec lim (N.of_nat (length l) * size)); [lia|auto]. }
    rewrite E. cbn [orb]. rewrite Nat2N.id. now apply (dec_many_enc c ok).
  - intros lim b l r Hb E. cbn [dec xlist] in E.
    destruct (take 4 b) as [[x s]|] eqn:Et; [|discriminate]. cbv zeta in E.
    apply take_Some in Et. destruct Et as [-> Hl].
    apply Forall_app_l in Hb. destruct Hb as [Hx Hs].
    destruct (N.ltb_spec max_int32 (of_be x)); [discriminate|]. cbn [orb] in E.
    destruct (negb (N.eqb lim 0) && (lim <? of_be x * size)%N) eqn:El; [discriminate|].
    destruct (dec_many_Some c ok lim _ _ _ _ S Hs E) as (E1 & E2 & u & -> & E3).
    split.
    + unfold list_ok. cbv zeta. replace (N.of_nat (length l)) with (of_be x) by lia.
      split; auto. split; auto.
      destruct (N.eqb_spec lim 0); auto. right. cbn [negb andb] in El.
      destruct (N.ltb_spec lim (of_be x * size)); [discriminate|auto].
    + exists (x ++ u). split; [now rewrite app_assoc|].
      cbn [enc xlist]. rewrite !app_length, E3, be_length. lia.
  - intros lim b l r more E. cbn [dec xlist] in *.
    destruct (take 4 b) as [[x s]|] eqn:Et; [|discriminate].
    rewrite (take_extends _ _ _ _ more Et). cbv zeta in *.
    destruct ((max_int32 <? of_be x)%N || (negb (N.eqb lim 0) && (lim <? of_be x * size)%N)); [discriminate|].
    now apply dec_many_extends.
Qed.
