(** What a received name does as a format. *)
From Verif Require Import Base Utf8Model StrconvModel XdrModel XdrProofs RpcModel CrpcModel AddrModel UiModel GroupModel WinModel WhoModel AnnModel
  SchedModel SizeProofs SizeModel SizeProps JamModel JamProps FmtModel.
From Coq Require Import Lia.
Local Open Scope N_scope.

(** * C85 *)

(** No percent sign. *)
Definition plain (s : bytes) : Prop := ~ In 37 s.
Definition plain_colours (P : palette) : Prop := plain (p_gc P) /\ plain (p_reset P).

(** A name of 12 bytes a time. *)
Definition directive12 : bytes := bs "%1000000[1]v".
Definition bomb (n : nat) : bytes := concat (repeat directive12 n).

Lemma bomb_len n : len (bomb n) = 12 * N.of_nat n.
Proof. induction n as [|n IH]; [reflexivity|]. cbn [bomb repeat concat]. rewrite len_app. fold (bomb n). rewrite IH. change (len directive12) with 12. lia. Qed.

Section Sprintf.
Variable other : list bytes -> nat -> bytes -> bytes.

Lemma step_text args f arg re c r : c <> 37 -> doprintf other args (S f) arg re (c :: r) = c :: doprintf other args f arg re r.
Proof.
  intros H. cbn [doprintf]. destruct c as [|p]; [reflexivity|].
  repeat (destruct p as [p|p|]; try reflexivity). now destruct H.
Qed.
Lemma text args : forall s f arg re t, plain s -> (length s <= f)%nat ->
  doprintf other args f arg re (s ++ t) = s ++ doprintf other args (f - length s) arg re t.
Proof.
  induction s as [|c s IH]; intros f arg re t P L; cbn [app length].
  - now rewrite Nat.sub_0_r.
  - destruct f as [|f]; [cbn in L; lia|]. rewrite step_text by (intros ->; apply P; now left).
    rewrite IH by (cbn in L; try lia; intros I; apply P; now right). reflexivity.
Qed.
Lemma done args f arg re : (length args <= arg)%nat -> doprintf other args f arg re [] = [].
Proof.
  intros L. assert (E : (arg <? length args)%nat = false) by now apply Nat.ltb_ge.
  destruct f; cbn [doprintf]; now rewrite E, andb_false_r.
Qed.

Lemma pad_len w s : w <= len (pad w s).
Proof.
  unfold pad. rewrite len_app. unfold len. rewrite repeat_length.
  assert (H : forall f l, (length (runes_fuel f l) <= f)%nat).
  { induction f as [|f IH]; intros [|a l]; cbn [runes_fuel]; [auto..|cbn; lia|].
    destruct (decode_rune (a :: l)) as [r k]. cbn [length]. specialize (IH (skipn k (a :: l))). lia. }
  specialize (H (length s) s). fold (runes s) in H. lia.
Qed.

(** The two verbs of the program, with one argument. *)
Lemma two_verbs err f t : doprintf other [err] (S (S (S f))) 0 false (bs "%v %v" ++ t) = err ++ bs " %!v(MISSING)" ++ doprintf other [err] f 1 false t.
Proof.
  change (pad 0 err ++ (32 :: (bs "%!v(MISSING)" ++ doprintf other [err] f 1 false t)) = err ++ bs " %!v(MISSING)" ++ doprintf other [err] f 1 false t).
  reflexivity.
Qed.
Lemma bomb_step err f arg re t : doprintf other [err] (S f) arg re (directive12 ++ t) = pad 1000000 err ++ doprintf other [err] f 1 true t.
Proof. reflexivity. Qed.

Lemma bomb_run err t : forall n f arg re, (n <= f)%nat -> 1000000 * N.of_nat n <= len (doprintf other [err] f arg re (bomb n ++ t)).
Proof.
  induction n as [|n IH]; intros f arg re L; [cbn; lia|]. destruct f as [|f]; [lia|].
  cbn [bomb repeat concat]. fold (bomb n). rewrite <- app_assoc, bomb_step, len_app.
  assert (B := pad_len 1000000 err). specialize (IH f 1%nat true ltac:(lia)). lia.
Qed.

Lemma failed_start P name err : plain_colours P ->
  exists f, (length (p_gc P ++ name ++ p_reset P) <= f)%nat /\ sprintf other (failed_format P name) [err] =
    bs "could not update group chat list: " ++ err ++ bs " %!v(MISSING)" ++ doprintf other [err] f 1 false (p_gc P ++ name ++ p_reset P).
Proof.
  intros _. unfold sprintf, failed_format. set (t := p_gc P ++ name ++ p_reset P).
  change (bs "could not update group chat list: %v %v" ++ t) with (bs "could not update group chat list: " ++ (bs "%v %v" ++ t)).
  exists (length t + 2)%nat. split; [lia|].
  rewrite text.
  - f_equal. rewrite !app_length. change (length (bs "could not update group chat list: ")) with 34%nat. change (length (bs "%v %v")) with 5%nat.
    replace (34 + (5 + length t) - 34)%nat with (S (S (S (length t + 2)))) by lia. apply two_verbs.
  - intros I. cbv in I. repeat (destruct I as [I|I]; [discriminate I|]). exact I.
  - rewrite !app_length. lia.
Qed.
End Sprintf.

(** Why a list may be refused. *)
Inductive refused (c : gclient) (from : bytes) (gl : GroupList) : bytes -> Prop :=
| No_group : mget (c_groups c) (GroupList_Name gl) = None -> refused c from gl (bs "group not found: " ++ GroupList_Name gl)
| No_member g : mget (c_groups c) (GroupList_Name gl) = Some g -> GroupList_Members g = [] -> refused c from gl (bs "partial group")
| Not_admin g a r : mget (c_groups c) (GroupList_Name gl) = Some g -> GroupList_Members g = a :: r -> a <> from -> refused c from gl (bs "not group administrator").

Lemma update_refused c from gl save err : refused c from gl err -> update_error c from gl save = Some err.
Proof.
  intros [E|g E M|g a r E M N]; unfold update_error; rewrite E; [reflexivity|now rewrite M|].
  rewrite M. destruct (eqb_spec a from); [easy|reflexivity].
Qed.

(** A line is printed exactly if the list is refused or, being the administrator's, cannot be
    written to the disk. *)
Theorem C85_when : forall other P c from gl save,
  (exists line, failed_line other P c from gl save = Some line) <->
  (exists err, refused c from gl err) \/
  (exists g r, mget (c_groups c) (GroupList_Name gl) = Some g /\ GroupList_Members g = from :: r /\ save <> None).
Proof.
  intros other P c from gl save. unfold failed_line. split.
  - intros [line H]. destruct (update_error c from gl save) as [err|] eqn:U; [|discriminate]. unfold update_error in U.
    destruct (mget (c_groups c) (GroupList_Name gl)) as [g|] eqn:E; [|left; eexists; now apply No_group].
    destruct (GroupList_Members g) as [|a r] eqn:M; [left; eexists; eapply No_member; eauto|].
    destruct (eqb_spec a from) as [->|N]; [right|left; eexists; eapply Not_admin; eauto].
    exists g, r. split; [reflexivity|split; [exact M|congruence]].
  - intros [[err R]|(g & r & E & M & S)].
    + rewrite (update_refused _ _ _ _ _ R). eauto.
    + unfold update_error. rewrite E, M, eqb_refl. destruct save; [eauto|easy].
Qed.
Print Assumptions C85_when.

(** The line for a name without percent signs: what is missing is the second argument. *)
Theorem C85_plain : forall other P c from gl save err, plain_colours P -> plain (GroupList_Name gl) -> refused c from gl err ->
  failed_line other P c from gl save =
  Some (bs "could not update group chat list: " ++ err ++ bs " %!v(MISSING)" ++ p_gc P ++ GroupList_Name gl ++ p_reset P).
Proof.
  intros other P c from gl save err C N R. unfold failed_line. rewrite (update_refused _ _ _ _ _ R).
  destruct (failed_start other P (GroupList_Name gl) err C) as (f & L & ->). f_equal. do 3 f_equal.
  rewrite <- (app_nil_r (p_gc P ++ _ ++ _)) at 1. rewrite text.
  - rewrite done by (cbn; auto). apply app_nil_r.
  - destruct C as [C1 C2]. intros I. apply in_app_or in I as [I|I]; [now apply C1|]. apply in_app_or in I as [I|I]; auto.
  - exact L.
Qed.
Print Assumptions C85_plain.

(** Whoever is not the administrator of a group of that name, 12 bytes of a name make a
    million bytes of the line. *)
Theorem C85_bomb_refuted : forall other P c from n gen ts members save err, plain_colours P ->
  let gl := mkGroupList (bomb n) gen ts members in refused c from gl err ->
  len (GroupList_Name gl) = 12 * N.of_nat n /\
  exists line, failed_line other P c from gl save = Some line /\ 1000000 * N.of_nat n <= len line.
Proof.
  intros other P c from n gen ts members save err C gl R. split; [apply bomb_len|]. unfold failed_line.
  rewrite (update_refused _ _ _ _ _ R). destruct (failed_start other P (GroupList_Name gl) err C) as (f & L & ->).
  eexists. split; [reflexivity|]. destruct C as [C1 C2]. rewrite text.
  - rewrite !len_app. assert (B : 1000000 * N.of_nat n <= len (doprintf other [err] (f - length (p_gc P)) 1 false (bomb n ++ p_reset P))).
    { apply bomb_run. rewrite !app_length in L. cbn [gl GroupList_Name] in L. pose proof (bomb_len n) as Bn. unfold len in Bn. lia. }
    cbn [gl GroupList_Name]. lia.
  - exact C1.
  - rewrite app_length in L. lia.
Qed.
Print Assumptions C85_bomb_refuted.

(** Such a list can be sent: a name of up to 21909 times 12 bytes is within the limit of the
    session, compressed or not. *)
Theorem C85_sent_refuted : forall deflate to gen ts n, N.of_nat n <= 21909 ->
  size deflate (ToClient to (GList (mkGroupList (bomb n) gen ts []))) <= 263168.
Proof.
  intros deflate to gen ts n L. unfold size.
  assert (X : len (payload_xdr (GList (mkGroupList (bomb n) gen ts []))) = 24 + 12 * N.of_nat n).
  { cbn [payload_xdr enc GroupList_codec xiso xpair fst snd GroupList_Name GroupList_Generation GroupList_Timestamp GroupList_Members xuint64 xint64 xlist flat_map].
    rewrite !len_app, len_opaque, !len_be, bomb_len. cbn [length].
    assert (P : padded (12 * N.of_nat n) = 12 * N.of_nat n).
    { rewrite padded_spec. replace (12 * N.of_nat n + 3) with (3 + 3 * N.of_nat n * 4) by lia. rewrite N.div_add by lia. change (3 / 4) with 0. lia. }
    rewrite P. change (len (concat (map (enc (xfixed 32)) []))) with 0. change (N.of_nat 8) with 8. change (N.of_nat 4) with 4. lia. }
  set (x := len (payload_xdr _)) in *. set (y := len (deflate _)). rewrite !up_padded. change (padded (len (payload_command _))) with 12.
  assert (Q : padded (12 + (if x <? y then x else 4 + y)) <= padded 262952).
  { apply padded_mono. destruct (N.ltb_spec x y); lia. }
  change (padded 262952) with 262952 in Q. lia.
Qed.
Print Assumptions C85_sent_refuted.

(** And the rest of what is done about it is nothing: the groups stay as they are, and no
    window is opened. *)
Theorem C85_nothing : forall me name w c from gl err, refused c from gl err ->
  snd (hear_list me name w c from gl) = c /\ In NoUpdate (fst (hear_list me name w c from gl)) /\
  (mget (c_groups c) (GroupList_Name gl) = None -> ~ In Opened (fst (hear_list me name w c from gl))).
Proof.
  intros me name w c from gl err R. assert (U : update_list c from gl w = (c, false)).
  { unfold update_list, admin. destruct R as [E|g E M|g a r E M N]; rewrite E; [reflexivity|now rewrite M|].
    rewrite M. destruct (eqb_spec a from); [easy|reflexivity]. }
  unfold hear_list. destruct (warn me name false (GroupList_Members gl)) as [miss e] eqn:Wn. rewrite U. cbn [fst snd].
  split; [reflexivity|]. split; [right; repeat (apply in_or_app; right); now left|].
  intros E. unfold say_diff. rewrite E. cbn [app].
  assert (M : forall l b, ~ In Opened (fst (warn me name b l))).
  { induction l as [|m l IH]; intros b; cbn [warn]; [easy|]. destruct (eqb m me); [apply IH|]. destruct (name m); [apply IH|].
    specialize (IH true). destruct (warn me name true l) as [x e']. intros [I|I]; [discriminate|]. now apply IH. }
  specialize (M (GroupList_Members gl) false). rewrite Wn in M. cbn [fst] in M.
  intros [I|I]; [discriminate|]. apply in_app_or in I as [I|I]; [now apply M|]. destruct e; cbn in I; intuition discriminate.
Qed.
Print Assumptions C85_nothing.

(** ** Cases *)

Definition f_P : palette := mkPalette (bs "C") (bs "G") (bs "P") (bs "R") (bs "M").
Definition f_c : gclient := mkGclient [(bs "dev", mkGroupList (bs "dev") 1 0 [repeat 1 32; repeat 2 32])] [] None None [].
Example C85_case : plain_colours f_P /\
  refused f_c (repeat 3 32) (mkGroupList (bs "x") 1 0 []) (bs "group not found: x") /\
  refused f_c (repeat 2 32) (mkGroupList (bs "dev") 1 0 []) (bs "not group administrator") /\
  failed_line (fun _ _ s => s) f_P f_c (repeat 2 32) (mkGroupList (bs "dev") 1 0 []) None =
    Some (bs "could not update group chat list: not group administrator %!v(MISSING)GdevR") /\
  failed_line (fun _ _ s => s) f_P f_c (repeat 1 32) (mkGroupList (bs "dev") 1 0 []) None = None /\
  failed_line (fun _ _ s => s) f_P f_c (repeat 2 32) (mkGroupList (bs "%30[1]v") 1 0 []) None =
    Some (bs "could not update group chat list: group not found: %30[1]v %!v(MISSING)G      group not found: %30[1]vR").
Proof.
  split; [split; intros I; cbv in I; intuition discriminate|].
  split; [now apply No_group|].
  split; [eapply Not_admin; [reflexivity|reflexivity|discriminate]|]. vm_compute. auto.
Qed.
