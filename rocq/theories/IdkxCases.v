(** Concrete cases for C63 and C64: toy functions that meet the laws, two clients,
    and the runs the theorems speak about. *)
From Verif Require Import Base XdrModel XdrProofs RpcModel RpcProofs HexModel BlobModel IdentityModel AddrModel RatchetModel RatchetProps IdkxModel IdkxProofs IdkxProps IdkxRun IdkxRunProps.
From Verif Require BlobProps.
Local Open Scope N_scope.

Definition toy_encap (coins pk : bytes) : bytes * bytes := (repeat (hd 0 coins mod 16) 1047, repeat (16 * (hd 0 pk mod 16) + hd 0 coins mod 16) 32).
Definition toy_decap (sk c : bytes) : option bytes := Some (repeat (16 * (hd 0 sk mod 16) + hd 0 c mod 16) 32).
Definition toy_keypair (pk sk : bytes) : Prop := hd 0 pk = hd 0 sk.
Definition toy_hash (x : bytes) : bytes := fold_left N.add x 0 mod 256 :: firstn 31 (rev x ++ repeat 0 31).
Definition toy : suite := mkSuite
  (fun k m => firstn 32 (rev m ++ k ++ repeat 0 32)) toy_hash
  (fun a b => Some (repeat (hd 0 a mod 100 + hd 0 b) 32)) (fun a => repeat (hd 0 a mod 100) 32)
  BlobProps.toy_seal BlobProps.toy_unseal (fun p salt => firstn 32 (p ++ salt ++ repeat 0 32))
  toy_encap toy_decap BlobProps.toy_verify.

Lemma app_same_length (a b x y : bytes) : length a = length b -> a ++ x = b ++ y -> a = b.
Proof. revert b. induction a as [|u a IH]; intros [|v b] L E; try discriminate; [reflexivity|]. injection E as -> E. injection L as L. f_equal. auto. Qed.

Example toy_laws : laws toy toy_keypair.
Proof.
  unfold laws. cbn [toy s_seal s_unseal s_scrypt s_encap s_decap]. repeat match goal with |- _ /\ _ => split end.
  - apply BlobProps.toy_box.
  - intros k k' n m L L' N. unfold BlobProps.toy_unseal, BlobProps.toy_seal. destruct (eqb_spec (firstn (length (k' ++ n)) (k ++ n ++ m)) (k' ++ n)) as [E|]; [|reflexivity].
    exfalso. apply N. rewrite app_assoc in E. rewrite firstn_app in E. replace (length (k' ++ n) - length (k ++ n))%nat with 0%nat in E by (rewrite !app_length; lia).
    cbn [firstn] in E. rewrite app_nil_r in E. replace (length (k' ++ n)) with (length (k ++ n)) in E by (rewrite !app_length; lia). rewrite firstn_all in E.
    apply (app_same_length k k' n n); [lia|exact E].
  - intros k n m L1 L2. unfold BlobProps.toy_seal. rewrite !app_length. lia.
  - intros p salt. rewrite firstn_length, !app_length, repeat_length. lia.
  - intros coins pk sk E. unfold toy_decap, toy_encap, toy_keypair in *. cbn [fst snd]. rewrite E. do 3 f_equal.
    change 1047%nat with (S 1046). cbn [repeat hd]. apply N.mod_mod. discriminate.
  - intros coins pk. unfold toy_encap. cbn [fst snd]. now rewrite !repeat_length.
Qed.

Example toy_bytes : byte_box toy.
Proof.
  intros k n b m B. cbn [toy s_unseal]. unfold BlobProps.toy_unseal. destruct (eqb _ _); [|discriminate]. intros E. injection E as <-.
  rewrite Forall_forall in *. intros x Hx. apply B. rewrite <- (firstn_skipn (length (k ++ n)) b). apply in_or_app. now right.
Qed.

Definition ida := 194 :: repeat 1 31.
Definition idb := 132 :: repeat 2 31.
Definition person (x : N) (name : bytes) : FullIdentity :=
  match new_identity toy_hash BlobProps.toy_sign BlobProps.toy_verify (repeat x 32) (repeat x 32) (repeat x 1218) (repeat x 1600) name name with
  | Ok fi => fi
  | _ => mkFullIdentity (mkPublicIdentity [] [] [] [] [] [] []) [] []
  end.
Definition alice (dir : bool) : client := mkClient (person 1 (bs "alice")) dir [] [] [] [].
Definition bob (dir : bool) : client := mkClient (person 2 (bs "bob")) dir [] [] [] [].
(** Randomness and the like of one handler; each number gives another. *)
Definition draw (x : N) : env :=
  mkEnv (repeat (x + 20) 32) [x] (repeat (x + 40) 32) (repeat (x + 60) 24) [x + 1] (repeat (x + 80) 24) (repeat (x + 100) 32)
    (repeat (x + 120) 32) (repeat (x + 140) 24) (repeat (x + 160) 24) (fun l => rev l) (fun l => l) 1000 true.
Definition offline (x : N) : env :=
  mkEnv (repeat (x + 20) 32) [x] (repeat (x + 40) 32) (repeat (x + 60) 24) [x + 1] (repeat (x + 80) 24) (repeat (x + 100) 32)
    (repeat (x + 120) 32) (repeat (x + 140) 24) (repeat (x + 160) 24) (fun l => rev l) (fun l => l) 1000 false.

Example draws_ready : ready toy (draw 3) /\ ready toy (draw 5) /\ ready toy (draw 7) /\ ready toy (draw 9) /\ ready toy (draw 11) /\ ready toy (draw 13).
Proof. repeat split; try apply Permutation_rev; vm_compute; reflexivity. Qed.
Lemma person_ok x name dir : In (x, name) [(1, bs "alice"); (2, bs "bob")] ->
  own_ok toy_keypair (mkClient (person x name) dir [] [] [] []) /\ verify (s_sha toy) (s_verify toy) (FullIdentity_Public (person x name)) = true /\
  ident (FullIdentity_Public (person x name)) = if x =? 1 then ida else idb.
Proof.
  assert (S : forall n b, (N.of_nat (length b) =? n) = true -> size_ok n b) by (intros n b H; now apply N.eqb_eq in H).
  assert (T : forall b : bytes, (length b <=? 1000)%nat = true -> str_ok 0 b) by (intros b H; apply small_opaque; now apply Nat.leb_le).
  assert (Z : forall a b : bytes, eqb a b = false -> a <> b) by (intros a b H ->; now rewrite eqb_refl in H).
  unfold own_ok, public, private, PublicIdentity_ok. cbn [c_me c_keys].
  intros [E|[E|[]]]; injection E as <- <-; (split; [split; [|split; [|split]]|split]);
    [unfold toy_keypair; vm_compute; reflexivity
    |split; [|split; [|split; [|split; [|split; [|split]]]]]; (apply S || apply T); vm_compute; reflexivity
    |apply Z; vm_compute; reflexivity|constructor|vm_compute; reflexivity|vm_compute; reflexivity
    |unfold toy_keypair; vm_compute; reflexivity
    |split; [|split; [|split; [|split; [|split; [|split]]]]]; (apply S || apply T); vm_compute; reflexivity
    |apply Z; vm_compute; reflexivity|constructor|vm_compute; reflexivity|vm_compute; reflexivity].
Qed.
Example people dir : own_ok toy_keypair (alice dir) /\ own_ok toy_keypair (bob dir) /\ ident (public (alice dir)) = ida /\ ident (public (bob dir)) = idb /\
  verify (s_sha toy) (s_verify toy) (public (bob dir)) = true /\ verify (s_sha toy) (s_verify toy) (public (alice dir)) = true.
Proof.
  destruct (person_ok 1 (bs "alice") dir) as (A & B & C); [now left|]. destruct (person_ok 2 (bs "bob") dir) as (D & E & F); [right; now left|].
  unfold alice, bob, public. cbn [c_me]. auto 8.
Qed.

(** The message a client sent last. *)
Definition last_out (c : client) : bytes := match rev (c_out c) with (_, _, m) :: _ => m | [] => [] end.
(** A decidable part of "talking". *)
Definition talk (a b : client) : bool :=
  match f_full (fget a (ident (public b))), f_full (fget b (ident (public a))) with
  | Some ra, Some rb => eqb (root_key ra) (root_key rb) && eqb (recv_chain ra) (send_chain rb)
  | _, _ => false
  end.
Definition has (c : client) (id : bytes) : bool * bool * bool :=
  (is_some (f_id (fget c id)), is_some (f_full (fget c id)), is_some (f_half (fget c id))).

(** An exchange with a directory. *)
Definition a1 := after toy (alice true) (draw 3) (FindReply (public (bob true))).
Definition b1 := after toy (bob true) (draw 5) (Push false ida (last_out a1)).
Definition a2 := after toy a1 (draw 7) (Push false idb (last_out b1)).
Example find_case : has a1 idb = (true, false, true) /\ talk a2 b1 = true /\ has a2 idb = (true, true, false) /\ has b1 ida = (true, true, false) /\
  c_added a2 = [public (bob true)] /\ c_added b1 = [public (alice true)] /\ talk a1 b1 = false.
Proof. vm_compute. repeat split. Qed.

(** An exchange with a password. *)
Definition pb0 := after toy (bob false) (draw 3) (Share (bs "secret")).
Definition pa1 := after toy (alice false) (draw 5) (Accept (bs "secret") (shared_blob (s_seal toy) (s_scrypt toy) (bob false) (draw 3) (bs "secret"))).
Definition pb1 := after toy pb0 (draw 7) (Push false ida (last_out pa1)).
Definition pa2 := after toy pa1 (draw 9) (Push false idb (last_out pb1)).
Example password_case : talk pa2 pb1 = true /\ c_keys pb1 = c_keys pa2 /\
  c_out (after toy (alice false) (draw 5) (Accept (bs "other") (shared_blob (s_seal toy) (s_scrypt toy) (bob false) (draw 3) (bs "secret")))) = [].
Proof. vm_compute. repeat split. Qed.

(** A message on the new ratchet. *)
Definition a3 := after toy a2 (draw 9) (Say idb (bs "hello")).
Example say_case : length (c_out a3) = S (length (c_out a2)).
Proof. vm_compute. reflexivity. Qed.

(** The states are reached in the sense of C63, and the contact is secured. *)
Example find_lived : lived toy (person 2 (bs "bob")) true b1 /\ secured b1 ida /\ stored b1 ida = Some (public (alice true)).
Proof.
  assert (P : proper (Push false ida (last_out a1))).
  { cbn [proper]. apply Forall_forall. intros x Hx. unfold is_byte.
    assert (H : forallb (fun x => x <? 256) (last_out a1) = true) by (vm_compute; reflexivity). rewrite forallb_forall in H. apply N.ltb_lt. auto. }
  split; [|split; [left; vm_compute; discriminate|vm_compute; reflexivity]].
  change b1 with (after toy (mkClient (person 2 (bs "bob")) true [] [] [] []) (draw 5) (Push false ida (last_out a1))).
  assert (E : forall c e ev, after toy c e ev = until toy c e ev (length (fst (reaction toy c e ev)))).
  { intros c e ev. unfold after, done, until, cut, reaction. now rewrite firstn_all. }
  rewrite E. constructor; [constructor|exact P|]. intros l k H. now apply in_rev.
Qed.
(** C63_change: here the record came with the message, and before it there was none. *)
Example change_case : stored (bob true) ida = None /\ ~ secured (bob true) ida /\ stored b1 ida = Some (public (alice true)).
Proof. repeat split; try (vm_compute; reflexivity). intros [H|H]; apply H; reflexivity. Qed.
(** C63_frozen and C63_isolation: an exchange under another name with the same
    identity in it, while there is a ratchet, changes nothing. *)
Definition mallory : client := mkClient (mkFullIdentity (with_key (public (alice true)) (repeat 9 1218)) [] (repeat 9 1600)) true [] [] [] [].
Definition mm := last_out (after toy mallory (draw 9) (FindReply (public (bob true)))).
Example frozen_case : fget (after toy b1 (draw 11) (Push false (repeat 77 32) mm)) ida = fget b1 ida /\
  stored (after toy (bob true) (draw 11) (Push false (repeat 77 32) mm)) ida = Some (public mallory).
Proof. vm_compute. repeat split. Qed.

(** A reset by one side. *)
Definition ra0 := after toy a2 (draw 9) (Reset idb).
Definition rb1 := after toy b1 (draw 11) (Push true ida (last_out ra0)).
Definition ra1 := after toy ra0 (draw 13) (Push false idb (last_out rb1)).
Definition rb2 := after toy rb1 (draw 3) (Push false ida (last_out ra1)).
Example reset_case : known toy a2 b1 /\ known toy b1 a2 /\ has ra0 idb = (true, false, false) /\ has rb1 ida = (true, false, true) /\ talk rb2 ra1 = true.
Proof. vm_compute. repeat split. Qed.

(** Without a directory. *)
Definition qa0 := after toy pa2 (draw 9) (Reset idb).
Definition qb1 := after toy pb1 (draw 11) (Push true ida (last_out qa0)).
Definition qa1 := after toy qa0 (draw 13) (Push false idb (last_out qb1)).
Example reset_password_case : known toy pb1 pa2 /\ opens_none toy pa2 (last_out qb1) /\ has qa1 idb = (true, false, false) /\ has qb1 ida = (true, false, true).
Proof.
  split; [vm_compute; split; reflexivity|]. split; [|vm_compute; split; reflexivity].
  intros k H. revert H. vm_compute. intros [<-|[]]. reflexivity.
Qed.

(** Both at once. *)
Definition xb0 := after toy b1 (draw 11) (Reset ida).
Definition xa1 := after toy ra0 (draw 3) (Push true idb (last_out xb0)).
Definition xb1 := after toy xb0 (draw 5) (Push true ida (last_out ra0)).
Definition xa2 := after toy xa1 (draw 7) (Push false idb (last_out xb1)).
Definition xb2 := after toy xb1 (draw 13) (Push false ida (last_out xa1)).
Example crossed_case : (forall k, In k (c_keys xa1) -> s_unseal toy k (firstn 24 (last_out xb1)) (skipn 24 (last_out xb1)) = None) /\
  opens_none toy xb1 (last_out xa1) /\ has xa2 idb = (true, false, true) /\ has xb2 ida = (true, false, true) /\
  has (typed toy xa2 [(draw 9, Say idb (bs "hello")); (draw 9, Reset idb); (draw 9, Say idb (bs "there"))]) idb = (true, false, false).
Proof.
  repeat match goal with |- _ /\ _ => split end; try (vm_compute; reflexivity).
  - intros k H. revert H. vm_compute. intuition (subst; reflexivity).
  - intros k H. revert H. vm_compute. intuition (subst; reflexivity).
Qed.

(** A reset in the contact's name, online and offline, and the takeover. *)
Definition fake := enc ProxyCmd_codec (mkProxyCmd cmd_reset (bs "x")).
Definition tb0 := after toy b1 (draw 11) (Push true ida fake).
Definition tb1 := after toy tb0 (draw 3) (Reset ida).
Definition tb2 := after toy tb1 (draw 5) (Push false ida mm).
Example takeover_case : has b1 ida = (true, true, false) /\ has tb0 ida = (true, false, true) /\
  has (after toy b1 (offline 11) (Push true ida fake)) ida = (true, false, false) /\ has tb1 ida = (true, false, false) /\
  stored tb2 ida = Some (public mallory) /\ has tb2 ida = (true, true, false) /\ verify (s_sha toy) (s_verify toy) (public mallory) = false /\
  toy_keypair (repeat 9 1218) (repeat 9 1600).
Proof. repeat match goal with |- _ /\ _ => split end; vm_compute; reflexivity. Qed.
