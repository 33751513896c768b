(** C92: what /send sends to whom. *)
From Verif Require Import Base XdrModel RpcModel AddrModel IniModel UiModel WinModel WinProofs WinProps SendModel TabModel TabProps.
Local Open Scope N_scope.

Ltac asc := cbn [app]; repeat (progress (rewrite <- ?app_assoc; cbn [app])); reflexivity.

Definition word (w : bytes) : Prop := w <> [] /\ no_blank w = true.

Lemma word_32 w : word w -> ~ In 32 w.
Proof. intros [_ H] I. unfold no_blank in H. rewrite forallb_forall in H. specialize (H 32 I). discriminate. Qed.
Lemma word_last w : word w -> exists t z, w = t ++ [z] /\ is_space z = false.
Proof.
  intros [N H]. destruct (exists_last N) as (t & z & E). exists t, z. split; auto. unfold no_blank in H. rewrite forallb_forall in H.
  assert (I : In z w) by (rewrite E; apply in_or_app; right; now left). specialize (H z I). now destruct (is_space z).
Qed.
Lemma word_head w : word w -> exists c r, w = c :: r /\ is_space c = false.
Proof.
  intros [N H]. destruct w as [|c r]; [congruence|]. exists c, r. split; auto. cbn in H. now destruct (is_space c).
Qed.

Lemma trim_word w r z sp : word w -> is_space z = false -> forallb is_space sp = true ->
  trim (32 :: w ++ (r ++ [z]) ++ sp) = w ++ r ++ [z].
Proof.
  intros W Z S. destruct (word_head w W) as (c & q & -> & C).
  replace (32 :: (c :: q) ++ (r ++ [z]) ++ sp) with ([32] ++ (c :: (q ++ r) ++ [z]) ++ sp) by asc.
  rewrite trim_mid by auto. cbn. now rewrite <- app_assoc.
Qed.
Lemma trim_one w sp : word w -> forallb is_space sp = true -> trim (32 :: w ++ sp) = w.
Proof.
  intros W S. destruct (word_head w W) as (c & r & E & C). destruct (word_last w W) as (t & z & E' & Z).
  destruct t as [|x t].
  - rewrite E'. unfold trim. cbn [app trim_left]. change (is_space 32) with true. cbv iota. rewrite Z.
    change (z :: sp) with ([z] ++ sp). rewrite rev_app_distr, trim_left_app by (rewrite forallb_rev; auto). cbn. now rewrite Z.
  - assert (x = c) as -> by (rewrite E in E'; now injection E'). rewrite E'.
    replace (32 :: ((c :: t) ++ [z]) ++ sp) with ([32] ++ (c :: t ++ [z]) ++ sp) by reflexivity. now rewrite trim_mid.
Qed.

Lemma descr_text n f t z sp : word n -> word f -> is_space z = false -> forallb is_space sp = true ->
  description (bs "/send" ++ 32 :: n ++ 32 :: f ++ 32 :: (t ++ [z]) ++ sp) n f = if eqb (t ++ [z]) f then [] else t ++ [z].
Proof.
  intros Wn Wf Z S. unfold description. rewrite trim_prefix_app.
  replace (32 :: n ++ 32 :: f ++ 32 :: (t ++ [z]) ++ sp) with (32 :: n ++ ((32 :: f ++ 32 :: t) ++ [z]) ++ sp)
    by asc.
  rewrite trim_word by auto. rewrite trim_prefix_app.
  replace ((32 :: f ++ 32 :: t) ++ [z]) with (32 :: f ++ 32 :: (t ++ [z]) ++ []) by (rewrite app_nil_r; asc).
  destruct Wf as [F1 F2]. now rewrite text_out.
Qed.
Lemma descr_none n f sp : word n -> word f -> forallb is_space sp = true ->
  description (bs "/send" ++ 32 :: n ++ 32 :: f ++ sp) n f = [].
Proof.
  intros Wn Wf S. unfold description. rewrite trim_prefix_app. destruct (word_last f Wf) as (t & z & E & Z).
  replace (32 :: n ++ 32 :: f ++ sp) with (32 :: n ++ ((32 :: t) ++ [z]) ++ sp) by (rewrite E; asc).
  rewrite trim_word by auto. rewrite trim_prefix_app.
  replace ((32 :: t) ++ [z]) with (32 :: f ++ []) by (rewrite E, app_nil_r; reflexivity). rewrite trim_one by auto.
  assert (P : trim_prefix f (f ++ bs " ") = f).
  { unfold trim_prefix. replace (WinModel.has_prefix (f ++ bs " ") f) with false; [reflexivity|]. symmetry. clear.
    induction f as [|c f IH]; [reflexivity|]. cbn [app WinModel.has_prefix]. now rewrite IH, andb_false_r. }
  rewrite P, E, trim_blanks_end by auto. destruct (eqb_spec (t ++ [z]) (t ++ [z])) as [_|X]; [reflexivity|destruct (X eq_refl)].
Qed.

(** The contact that the address book knows under the nick. *)
Definition known (me : PublicIdentity) (o : world) (n : bytes) (p : PublicIdentity) : Prop :=
  n <> nick me /\ find_nick (o_book o) n = Some p /\ mget (o_disk o) (ident p) <> None.

Lemma book_known me D G o ws n p : good D G o -> known me o n p ->
  exists ws' k new c, book_conversation me o ws n = Some (ws', k, new) /\ nth_error ws' k = Some c /\ ident (w_pub c) = ident p.
Proof.
  intros [Ho _] (N & F & M). unfold book_conversation. destruct (eqb_spec n (nick me)) as [X|_]; [contradiction|]. rewrite F.
  unfold get_conversation. destruct (mget (o_disk o) (ident p)) as [q|] eqn:Q; [|congruence]. unfold WinModel.place.
  destruct (first _ ws) as [k|] eqn:FI.
  - destruct (first_some _ _ _ FI) as (w & H1 & H2). apply eqb_true in H2. eauto 8.
  - do 4 eexists. split; [reflexivity|]. split; [rewrite nth_error_app2, Nat.sub_diag by lia; reflexivity|].
    cbn [w_pub contact_win]. now destruct (Ho _ _ Q).
Qed.

(** A file is announced to the contact whom the address book has under the nick, whichever
    windows are open; and the description is what is typed, but for white space at its
    end, and none if it is just the name of the file. *)
Theorem C92_sent : forall me D G o ws n p f t z sp, good D G o -> known me o n p -> word n -> word f ->
  is_space z = false -> forallb is_space sp = true ->
  snd (do_send me o ws (bs "/send" ++ 32 :: n ++ 32 :: f ++ 32 :: (t ++ [z]) ++ sp)) =
  Some (mkSending (ident p) f (if eqb (t ++ [z]) f then [] else t ++ [z])).
Proof.
  intros me D G o ws n p f t z sp Go K Wn Wf Z S. destruct (book_known me D G o ws n p Go K) as (ws' & k & new & c & B & N & I).
  unfold do_send. rewrite split_word by reflexivity. rewrite split_word by apply Wn. rewrite split_word by apply Wf.
  change (eqb (bs "/send") (bs "/send")) with true. cbv iota. rewrite B, N. cbn [snd]. now rewrite I, descr_text.
Qed.
Print Assumptions C92_sent.
Theorem C92_bare : forall me D G o ws n p f j, good D G o -> known me o n p -> word n -> word f ->
  snd (do_send me o ws (bs "/send" ++ 32 :: n ++ 32 :: f ++ repeat 32 j)) = Some (mkSending (ident p) f []).
Proof.
  intros me D G o ws n p f j Go K Wn Wf. destruct (book_known me D G o ws n p Go K) as (ws' & k & new & c & B & N & I).
  assert (S : forallb is_space (repeat 32 j) = true) by (induction j; auto).
  unfold do_send. rewrite split_word by reflexivity. rewrite split_word by apply Wn.
  assert (SP : exists r, split_spaces (f ++ repeat 32 j) = f :: r).
  { destruct j as [|j]; [exists []; cbn [repeat]; rewrite app_nil_r; now apply split_one, word_32|]. cbn [repeat]. rewrite split_word by apply Wf. eauto. }
  destruct SP as (r & SP). rewrite SP. change (eqb (bs "/send") (bs "/send")) with true. cbv iota. rewrite B, N. cbn [snd].
  now rewrite I, descr_none.
Qed.
Print Assumptions C92_bare.

(** Conversely, whatever is typed: what is sent goes to the one contact whose nick is the
    second word, and the file is the third. *)
Theorem C92_only : forall me D G o ws cmd to f d, good D G o ->
  snd (do_send me o ws cmd) = Some (mkSending to f d) ->
  exists n r p, (cmd = bs "/send" ++ 32 :: n ++ 32 :: f \/ cmd = bs "/send" ++ 32 :: n ++ 32 :: f ++ 32 :: r) /\
    ~ In 32 n /\ ~ In 32 f /\ known me o n p /\ to = ident p.
Proof.
  intros me D G o ws cmd to f d Go H. unfold do_send in H. destruct (split_glue cmd) as (GL & FA & _).
  destruct (split_spaces cmd) as [|a0 [|a1 [|a2 r]]] eqn:E; try discriminate.
  destruct (eqb_spec a0 (bs "/send")) as [->|_]; [|discriminate].
  destruct (book_conversation me o ws a1) as [[[ws' k] new]|] eqn:B; [|discriminate].
  destruct (nth_error ws' k) as [c|] eqn:N; [|discriminate]. cbn [snd] in H. injection H as <- <- <-.
  inversion FA as [|? ? _ FA1]; subst. inversion FA1 as [|? ? I1 FA2]; subst. inversion FA2 as [|? ? I2 _]; subst.
  exists a1, (glue r). unfold book_conversation in B. destruct (eqb_spec a1 (nick me)) as [|X]; [discriminate|].
  destruct (find_nick (o_book o) a1) as [p|] eqn:F; [|discriminate]. exists p.
  assert (K : known me o a1 p /\ ident (w_pub c) = ident p).
  { unfold get_conversation in B. destruct (mget (o_disk o) (ident p)) as [q|] eqn:Q; [|discriminate].
    assert (KN : known me o a1 p) by (split; auto; split; auto; congruence).
    destruct (book_known me D G o ws a1 p Go KN) as (ws2 & k2 & new2 & c2 & B2 & N2 & I).
    unfold book_conversation in B2. destruct (eqb_spec a1 (nick me)) as [|_]; [contradiction|]. rewrite F in B2.
    unfold get_conversation in B2. rewrite Q in B2. rewrite B in B2. injection B2 as <- <- <-. split; auto. congruence. }
  destruct K as [K1 K2]. split; [|auto].
  destruct r as [|a3 r]; [left|right]; reflexivity.
Qed.
Print Assumptions C92_only.

(** No window is lost or moved; at most that of the contact is opened, at the end, and only
    if it is not open. *)
Theorem C92_windows : forall me o ws cmd ws' opened s, do_send me o ws cmd = (ws', opened, s) ->
  (ws' = ws /\ opened = false) \/
  (exists id q, mget (o_disk o) id = Some q /\ ws' = ws ++ [contact_win q id] /\ opened = true /\
     (forall w, In w ws -> ident (w_pub w) <> id) /\ exists f d, s = Some (mkSending (ident q) f d)).
Proof.
  intros me o ws cmd ws' opened s H. unfold do_send in H.
  assert (R : (ws, false, None) = (ws', opened, s) -> ws' = ws /\ opened = false) by (intros X; injection X as <- <- <-; auto).
  destruct (split_spaces cmd) as [|a0 [|a1 [|a2 r]]]; auto. destruct (eqb a0 (bs "/send")); auto.
  destruct (book_conversation me o ws a1) as [[[ws1 k] new]|] eqn:B; auto. clear R.
  unfold book_conversation in B. destruct (eqb a1 (nick me)); [discriminate|]. destruct (find_nick (o_book o) a1) as [p|]; [|discriminate].
  unfold get_conversation in B. destruct (mget (o_disk o) (ident p)) as [q|] eqn:Q; [|discriminate]. unfold WinModel.place in B.
  destruct (first _ ws) as [j|] eqn:F; injection B as <- <- <-.
  - left. destruct (nth_error ws j); injection H as <- <- _; auto.
  - right. exists (ident p), q. split; auto. rewrite nth_error_app2, Nat.sub_diag in H by lia. cbn [nth_error] in H. injection H as <- <- <-.
    split; auto. split; auto. split; [|cbn [w_pub contact_win]; eauto].
    intros w I E. pose proof (first_none _ _ F w I) as X. cbn beta in X. rewrite E, eqb_refl in X. discriminate.
Qed.
Print Assumptions C92_windows.

(** * Where it fails *)

(** A file whose name holds a blank, as Tab offers it, is taken for another with the rest
    as its description. *)
Definition shelf : TabModel.place := {| p_nicks := [bs "bob"]; p_expand := Some;
  p_glob := fun d => if eqb d (bs "doc/") then [bs "doc/my plan"] else [] |}.
Theorem C92_blank_refuted : exists w o p f t, p_glob w (bs "doc/") = [f] /\ known me0 o (nick p) p /\
  tab w (mkTab (bs "/send " ++ nick p ++ bs " doc/") None) = Ok t /\ t_line t = bs "/send " ++ nick p ++ bs " " ++ f /\
  exists f' d, snd (do_send me0 o [console me0] (t_line t)) = Some (mkSending (ident p) f' d) /\ f' <> f.
Proof.
  exists shelf, o1, bob, (bs "doc/my plan"). eexists. split; [reflexivity|].
  split; [split; [discriminate|]; split; [vm_compute; reflexivity|discriminate]|].
  split; [vm_compute; reflexivity|]. split; [reflexivity|]. exists (bs "doc/my"), (bs "plan"). split; [vm_compute; reflexivity|discriminate].
Qed.
Print Assumptions C92_blank_refuted.

(** Of two contacts who call themselves the same one gets the messages and the other the
    files. *)
Theorem C92_two_refuted : exists o es s p q text f m, exec me0 (start me0 o) es = Go s /\ ident p <> ident q /\ nick p = nick q /\
  snd (action me0 (s_world s) (s_wins s) (s_active s) (bs "/m " ++ nick p ++ bs " " ++ text)) = Private (ident q) text m /\
  snd (do_send me0 (s_world s) (s_wins s) (bs "/send " ++ nick p ++ bs " " ++ f)) = Some (mkSending (ident p) f []).
Proof.
  exists o2, es2. eexists. exists bob, bob2, (bs "see the file"), (bs "plan.txt"), (Some 1%nat).
  split; [vm_compute; reflexivity|]. split; [discriminate|]. split; [reflexivity|]. split; vm_compute; reflexivity.
Qed.
Print Assumptions C92_two_refuted.

(** * Cases *)
Example C92_sent_case : known me0 o1 (bs "carol") carol /\ word (bs "carol") /\ word (bs "~/a.txt") /\ good D1 G1 o1 /\
  snd (do_send me0 o1 [console me0] (bs "/send carol ~/a.txt the  plan  ")) = Some (mkSending (ident carol) (bs "~/a.txt") (bs "the  plan")) /\
  snd (do_send me0 o1 [console me0] (bs "/send carol a.txt a.txt")) = Some (mkSending (ident carol) (bs "a.txt") []) /\
  snd (do_send me0 o1 [console me0] (bs "/send carol a.txt")) = Some (mkSending (ident carol) (bs "a.txt") []) /\
  snd (do_send me0 o1 [console me0] (bs "/send erin a.txt")) = None.
Proof.
  split; [split; [discriminate|]; split; [vm_compute; reflexivity|discriminate]|].
  split; [split; [discriminate|reflexivity]|]. split; [split; [discriminate|reflexivity]|].
  split; [exact good1|]. repeat split; vm_compute; reflexivity.
Qed.
