(** Concrete cases of the ratchet theorems. *)
From Verif Require Import Base XdrModel XdrProofs RpcModel BlobModel SessionProofs SessionProps RatchetModel RatchetProofs
  RatchetSaveProofs RatchetConvModel RatchetConvProofs RatchetProps.
Local Open Scope N_scope.

(** ** A concrete conversation

    A toy instance of the cryptography that satisfies the assumptions, and a short
    conversation with a message out of order, a replay, a damaged message and a
    message sent back to its sender. *)
Fixpoint code (l : bytes) : N := match l with [] => 0 | x :: r => N.shiftl (2 * code r + 1) x end.
Definition toy_hmac (k l : bytes) : bytes := k ++ [N.of_nat (length l)].
Definition toy_sha (m : bytes) : bytes := m.
Definition toy_base (x : bytes) : bytes := (hd 0 x + 9) :: repeat 0 31.
Definition toy_x25519 (x p : bytes) : option bytes := Some [hd 0 x + hd 0 p].
Definition toy_tag (k n : bytes) : bytes := [code k; code n] ++ repeat 0 14.
Definition toy_seal (k n m : bytes) : bytes := m ++ toy_tag k n.
Definition toy_unseal (k n c : bytes) : option bytes :=
  if (length c <? 16)%nat then None
  else if eqb (skipn (length c - 16) c) (toy_tag k n) then Some (firstn (length c - 16) c) else None.
Definition toy_scrypt (p s : bytes) : bytes := p ++ s.
Definition toy_encap (coins pk : bytes) : bytes * bytes := (coins ++ pk, coins).
Definition toy_decap (sk c : bytes) : option bytes := Some (firstn (length c - length sk) c).
Definition toy_xs (e : nat) : bytes := [100 + N.of_nat e].
Definition toy_sk : bytes := [1; 2].
Definition toy_a : ratchet := start_alice toy_hmac toy_base toy_xs toy_sk (Some [1]) (Some [2]).
Definition toy_b : ratchet := start_bob toy_hmac toy_xs toy_sk (Some [1]) (Some [2]).

Notation toy_step := (step toy_hmac toy_sha toy_x25519 toy_base toy_seal toy_unseal toy_xs).
Notation toy_run := (run toy_hmac toy_sha toy_x25519 toy_base toy_seal toy_unseal toy_xs).
Notation toy_fair := (fair toy_hmac toy_sha toy_x25519 toy_base toy_seal toy_unseal toy_xs toy_sk).
Notation toy_hk := (hk toy_hmac toy_sha toy_x25519 toy_base toy_xs toy_sk).
Notation toy_mk := (mk toy_hmac toy_sha toy_x25519 toy_base toy_xs toy_sk).
Notation toy_ck := (ck toy_hmac toy_sha toy_x25519 toy_base toy_xs toy_sk).

Definition nn (x : N) : bytes := repeat x 24.
Definition sends1 : list event := [Send false (nn 1) (nn 2) (bs "hi"); Send false (nn 3) (nn 4) (bs "yo")].
Definition log1 : list entry := w_log (fst (toy_run (start toy_a toy_b) sends1)).
Definition ct1 : bytes := match log1 with [_; e] => en_ct e | _ => [] end.
Definition ct2 : bytes := match log1 with [e; _] => en_ct e | _ => [] end.
Definition mid : list event :=
  [Recv true (fun l => l) 0 ct2; Recv true (fun l => rev l) 0 ct1; Recv true (fun l => l) 0 ct1;
   Recv true (fun l => l) 0 (firstn (length ct1 - 1) ct1 ++ [1]); Send true (nn 5) (nn 6) (bs "ok")].
Definition ct3 : bytes := match w_log (fst (toy_run (start toy_a toy_b) (sends1 ++ mid))) with e :: _ => en_ct e | _ => [] end.
Definition toy_evs : list event := sends1 ++ mid ++ [Recv false (fun l => l) 0 ct3; Recv false (fun l => l) 0 ct1].

Example toy_answers : map real_result (snd (toy_run (start toy_a toy_b) toy_evs)) =
  [None; None; Some (bs "yo"); Some (bs "hi"); None; None; None; Some (bs "ok"); None].
Proof. vm_compute. reflexivity. Qed.

Lemma code_inj : forall a b, code a = code b -> a = b.
Proof.
  assert (P : forall x n, N.shiftl (2 * n + 1) x = (2 * n + 1) * 2 ^ x) by (intros; apply N.shiftl_mul_pow2).
  assert (NZ : forall x r, code (x :: r) <> 0).
  { intros x r. cbn [code]. rewrite P. pose proof (N.pow_nonzero 2 x). nia. }
  assert (Q : forall x y n m, x <= y -> (2 * n + 1) * 2 ^ x = (2 * m + 1) * 2 ^ y -> x = y /\ n = m).
  { intros x y n m Hle E. replace y with ((y - x) + x) in E by lia. rewrite N.pow_add_r, N.mul_assoc in E.
    apply N.mul_cancel_r in E; [|apply N.pow_nonzero; lia].
    destruct (N.eq_dec (y - x) 0) as [Z|Z].
    - rewrite Z in E. change (2 ^ 0) with 1 in E. lia.
    - exfalso. replace (y - x) with (N.succ (y - x - 1)) in E by lia. rewrite N.pow_succ_r' in E.
      assert (X : N.odd (2 * n + 1) = N.odd ((2 * m + 1) * (2 * 2 ^ (y - x - 1)))) by now rewrite E.
      rewrite !N.odd_mul, N.odd_add, N.odd_mul in X. cbn in X. now rewrite andb_false_r in X. }
  induction a as [|x a IH]; intros [|y b] E; auto.
  - symmetry in E. now apply NZ in E.
  - now apply NZ in E.
  - cbn [code] in E. rewrite !P in E. destruct (N.le_gt_cases x y) as [H|H].
    + apply Q in E as [-> E]; auto. f_equal. auto.
    + symmetry in E. apply Q in E as [-> E]; [|lia]. f_equal. auto.
Qed.

Lemma toy_box : box_law toy_seal toy_unseal.
Proof.
  split; intros k n m; unfold toy_seal.
  - unfold toy_unseal. rewrite app_length. change (length (toy_tag k n)) with 16%nat.
    destruct (Nat.ltb_spec (length m + 16) 16); [lia|]. replace (length m + 16 - 16)%nat with (length m) by lia.
    rewrite skipn_app_len, firstn_app_len, eqb_refl by auto. reflexivity.
  - rewrite app_length. reflexivity.
Qed.

Fixpoint distinct (l : list bytes) : bool := match l with [] => true | x :: r => negb (existsb (eqb x) r) && distinct r end.
Lemma distinct_inj (f : nat -> bytes) l : distinct (map f l) = true -> forall e e', In e l -> In e' l -> f e = f e' -> e = e'.
Proof.
  induction l as [|x l IH]; cbn [map distinct]; intros H e e' I I' Q; [destruct I|]. apply andb_prop in H as [H1 H2]. apply negb_true_iff in H1.
  assert (N : forall y, In y l -> f x <> f y).
  { intros y J R. enough (existsb (eqb (f x)) (map f l) = true) by congruence. apply existsb_exists. exists (f y).
    split; [now apply in_map|]. rewrite R. apply eqb_refl. }
  destruct I as [<-|I], I' as [<-|I']; auto; exfalso; [now apply (N e')|now apply (N e)].
Qed.

Lemma toy_keys : keys_law toy_hmac toy_sha toy_x25519 toy_base toy_xs toy_sk 100.
Proof.
  assert (C : forall e, (1 <= e <= 100)%nat -> In e (seq 1 100)) by (intros; apply in_seq; lia).
  split; [|split].
  - intros e. unfold dh, toy_x25519, toy_base, toy_xs. cbn [pred hd]. split; auto. do 2 f_equal. lia.
  - assert (X : distinct (map toy_hk (seq 1 100)) = true) by (vm_compute; reflexivity).
    intros e e' H H' Q. apply C in H, H'. exact (distinct_inj toy_hk (seq 1 100) X e e' H H' Q).
  - assert (X : forallb (fun e => negb (is_zero_key (toy_hk e))) (seq 1 100) = true) by (vm_compute; reflexivity).
    intros e H. apply C in H. rewrite forallb_forall in X. specialize (X _ H). now apply negb_true_iff in X.
Qed.

Lemma toy_established :
  established toy_hmac toy_sha toy_base toy_seal toy_unseal toy_scrypt toy_encap toy_decap toy_xs toy_sk toy_a toy_b.
Proof.
  exists eq, [7], [7], [8], [8], [50], [1], [2], (repeat 0 32), (repeat 1 32), (nn 7), (nn 8).
  do 4 eexists. split.
  { intros coins pk sk <-. unfold toy_decap, toy_encap. cbn [fst snd]. rewrite app_length.
    replace (length coins + length pk - length pk)%nat with (length coins) by lia. now rewrite firstn_app_len. }
  do 6 (split; [reflexivity|]). split; [reflexivity|]. split; [reflexivity|].
  split; [vm_compute; reflexivity|]. split; [vm_compute; reflexivity|]. reflexivity.
Qed.

(** The number of 14s and of 8s in a message key tell its index and its chain. *)
Definition count (x : N) (l : bytes) : nat := count_occ N.eq_dec l x.
Lemma count_mk e i : (1 <= e <= 100)%nat -> count 14 (toy_mk e i) = N.to_nat i /\ count 8 (toy_mk e i) = pred e.
Proof.
  intros H. unfold count.
  assert (X : forall n, count_occ N.eq_dec (toy_ck e n) 14 = n /\ count_occ N.eq_dec (toy_ck e n) 8 = pred e).
  { induction n as [|n [IH1 IH2]].
    - assert (C : In e (seq 1 100)) by (apply in_seq; lia).
      assert (Y : forallb (fun e => Nat.eqb (count_occ N.eq_dec (toy_ck e 0) 14) 0 && Nat.eqb (count_occ N.eq_dec (toy_ck e 0) 8) (pred e))
                   (seq 1 100) = true) by (vm_compute; reflexivity).
      rewrite forallb_forall in Y. specialize (Y _ C). apply andb_prop in Y as [Y1 Y2].
      apply Nat.eqb_eq in Y1, Y2. auto.
    - change (toy_ck e (S n)) with (toy_ck e n ++ [14]). rewrite !count_occ_app, IH1, IH2. cbn. split; lia. }
  change (toy_mk e i) with (toy_ck e (N.to_nat i) ++ [N.of_nat (length message_label)]).
  destruct (X (N.to_nat i)) as [X1 X2]. rewrite !count_occ_app, X1, X2. cbn. split; lia.
Qed.

Lemma toy_open k n c m : toy_unseal k n c = Some m -> c = m ++ toy_tag k n.
Proof.
  unfold toy_unseal. destruct (length c <? 16)%nat; [discriminate|].
  destruct (eqb_spec (skipn (length c - 16) c) (toy_tag k n)) as [E|]; [|discriminate].
  intros [= <-]. rewrite <- E. now rewrite firstn_skipn.
Qed.

Lemma tag_key k n k' n' m m' : m ++ toy_tag k n = m' ++ toy_tag k' n' -> k = k' /\ n = n'.
Proof.
  intros H. assert (L : length m = length m').
  { apply (f_equal (@length _)) in H. rewrite !app_length in H. change (length (toy_tag k n)) with 16%nat in H.
    change (length (toy_tag k' n')) with 16%nat in H. lia. }
  assert (T : toy_tag k n = toy_tag k' n').
  { rewrite <- (skipn_app_len (length m) m (toy_tag k n) eq_refl), H. now apply skipn_app_len. }
  unfold toy_tag in T. injection T as T1 T2. split; now apply code_inj.
Qed.

(** Whatever is made of the parts of sent messages is unforged. *)
Definition made_of (log : list entry) (ct : bytes) : Prop :=
  (exists en hh e, In en log /\ en_epoch en = e /\ ct_nonce (en_ct en) = ct_nonce ct /\ ct_header (en_ct en) = ct_header ct /\
     (1 <= e <= 100)%nat /\ ct_header ct = hh ++ toy_tag (toy_hk e) (ct_nonce ct)) /\
  ((forall k n, toy_unseal k n (ct_body ct) = None) \/
   exists en e i n m, In en log /\ en_epoch en = e /\ en_index en = i /\ ct_body (en_ct en) = ct_body ct /\
     (1 <= e <= 100)%nat /\ ct_body ct = m ++ toy_tag (toy_mk e i) n).
Lemma toy_unforged log ct : made_of log ct ->
  unforged toy_hmac toy_sha toy_x25519 toy_base toy_unseal toy_xs toy_sk 100 log ct.
Proof.
  intros [(en & hh & e0 & H1 & H2 & H3 & H4 & H5 & H6) B]. split.
  - intros e h He U. apply toy_open in U. rewrite H6 in U. apply tag_key in U as [U _].
    destruct toy_keys as (_ & K & _). apply K in U; auto. subst. exists en. auto.
  - intros e i n m He U. destruct B as [B|(en' & e' & i' & n' & m' & B1 & B2 & B3 & B4 & B5 & B6)].
    + rewrite B in U. discriminate.
    + apply toy_open in U. rewrite B6 in U. apply tag_key in U as [U _]. 
      destruct (count_mk e i He) as [X1 X2]. destruct (count_mk e' i' B5) as [Y1 Y2]. rewrite U in *.
      exists en'. repeat split; auto; lia.
Qed.


(** A check of [fair] for this instance that computes. *)
Definition made_ofb (log : list entry) (ct : bytes) : bool :=
  existsb (fun en => let e := en_epoch en in
    eqb (ct_nonce (en_ct en)) (ct_nonce ct) && eqb (ct_header (en_ct en)) (ct_header ct) &&
    Nat.leb 1 e && Nat.leb e 100 &&
    eqb (ct_header ct) (firstn (length (ct_header ct) - 16) (ct_header ct) ++ toy_tag (toy_hk e) (ct_nonce ct))) log &&
  (negb (eqb (skipn (length (ct_body ct) - 14) (ct_body ct)) (repeat 0 14)) ||
   existsb (fun en => let e := en_epoch en in
     eqb (ct_body (en_ct en)) (ct_body ct) && Nat.leb 1 e && Nat.leb e 100 &&
     existsb (fun n => eqb (ct_body ct) (firstn (length (ct_body ct) - 16) (ct_body ct) ++ toy_tag (toy_mk e (en_index en)) n))
       (map (fun k => nn (2 * N.of_nat k)) (seq 1 100))) log).
Fixpoint fairb (w : world) (evs : list event) : bool :=
  match evs with
  | [] => true
  | ev :: evs' =>
      match ev with
      | Send who hn mn msg =>
          Nat.eqb (length hn) 24 && Nat.eqb (length mn) 24 && forallb (fun en => negb (eqb (ct_nonce (en_ct en)) hn)) (w_log w)
      | Recv who order now ct => made_ofb (w_log w) ct
      end && fairb (fst (toy_step w ev)) evs'
  end.
Lemma eqb_true (a b : bytes) : eqb a b = true -> a = b.
Proof. now destruct (eqb_spec a b). Qed.
Lemma made_ofb_ok log ct : made_ofb log ct = true -> made_of log ct.
Proof.
  unfold made_ofb. intros H. apply andb_prop in H as [H1 H2]. apply existsb_exists in H1 as (en & I & H1).
  cbv zeta in H1. rewrite !andb_true_iff in H1. destruct H1 as ((((A1 & A2) & A3) & A4) & A5). split.
  - exists en, (firstn (length (ct_header ct) - 16) (ct_header ct)), (en_epoch en).
    apply eqb_true in A1, A2, A5. apply Nat.leb_le in A3, A4. repeat split; auto.
  - apply orb_prop in H2 as [H2|H2].
    + left. intros k n. apply negb_true_iff in H2.
      destruct (toy_unseal k n (ct_body ct)) as [m|] eqn:U; auto. apply toy_open in U.
      rewrite U in H2. rewrite app_length in H2. change (length (toy_tag k n)) with 16%nat in H2.
      replace (length m + 16 - 14)%nat with (length (m ++ [code k; code n])) in H2 by (rewrite app_length; cbn; lia).
      unfold toy_tag in H2. rewrite app_assoc, skipn_app_len, eqb_refl in H2 by auto. discriminate.
    + right. apply existsb_exists in H2 as (en' & I' & H2).
      cbv zeta in H2. rewrite !andb_true_iff in H2. destruct H2 as (((B1 & B2) & B3) & B4).
      apply existsb_exists in B4 as (n & _ & B4). apply eqb_true in B1, B4. apply Nat.leb_le in B2, B3.
      exists en', (en_epoch en'), (en_index en'), n, (firstn (length (ct_body ct) - 16) (ct_body ct)).
      repeat split; auto.
Qed.
Lemma fairb_ok evs : forall w,
  Forall (fun ev => match ev with Recv _ order _ _ => forall l, Permutation l (order l) | _ => True end) evs ->
  fairb w evs = true -> toy_fair 100 w evs.
Proof.
  induction evs as [|ev evs IH]; intros w F H; cbn [fair fairb] in *; auto.
  inversion F; subst. apply andb_prop in H as [H H']. split; auto. destruct ev.
  - rewrite !andb_true_iff in H. destruct H as ((A1 & A2) & A3).
    apply Nat.eqb_eq in A1, A2. rewrite forallb_forall in A3. repeat split; auto.
    intros en I E. specialize (A3 _ I). rewrite E, eqb_refl in A3. discriminate.
  - split; auto. now apply toy_unforged, made_ofb_ok.
Qed.

Lemma toy_is_fair : toy_fair 100 (start toy_a toy_b) toy_evs.
Proof.
  apply fairb_ok.
  - repeat constructor; cbn; auto. apply Permutation_rev.
  - vm_compute. reflexivity.
Qed.

(** C15: the theorem applies to this conversation, whose answers are [toy_answers]. *)
Example C15_case :
  Forall (fun r => real_result r = ideal_result r /\ hangs r = false) (snd (toy_run (start toy_a toy_b) toy_evs)).
Proof.
  eapply C15_simulation with (E := 100%nat) (sk := toy_sk).
  - apply toy_box.
  - reflexivity.
  - apply toy_keys.
  - apply toy_established.
  - apply toy_is_fair.
  - cbn. lia.
  - reflexivity.
Qed.

(** C17: "hi" is returned once. *)
Notation toy_answer := (answer toy_hmac toy_sha toy_x25519 toy_base toy_seal toy_unseal toy_xs).
Definition before_hi : list event := sends1 ++ [Recv true (fun l => l) 0 ct2].
Example C17_case_hyp :
  toy_answer (fst (toy_run (start toy_a toy_b) before_hi)) (Recv true (fun l => rev l) 0 ct1) = Some (bs "hi").
Proof. vm_compute. reflexivity. Qed.
Example C17_case :
  toy_answer (fst (toy_run (start toy_a toy_b) (before_hi ++ [Recv true (fun l => rev l) 0 ct1] ++ [])))
    (Recv true (fun l => l) 0 ct1) = None.
Proof.
  eapply C17_no_replay with (E := 100%nat) (sk := toy_sk) (evs2 := []); [apply toy_box|reflexivity|apply toy_keys|apply toy_established| |cbn; lia|reflexivity|apply C17_case_hyp].
  apply fairb_ok; [|vm_compute; reflexivity]. repeat constructor; cbn; auto. apply Permutation_rev.
Qed.

(** C16: a damaged message; and an empty message, overtaken and then received. *)
Notation toy_decrypt := (decrypt toy_hmac toy_sha toy_x25519 toy_unseal).
Notation toy_encrypt := (encrypt toy_hmac toy_sha toy_x25519 toy_base toy_seal).
Definition out (x : ratchet * option bytes) : bytes := match snd x with Some c => c | None => [] end.
Example C16_damaged : toy_decrypt [] 0%Z toy_a (firstn (length ct1 - 1) ct1 ++ [1]) = (toy_a, Fail).
Proof. vm_compute. reflexivity. Qed.
Definition e1 := toy_encrypt toy_b [] (nn 1) (nn 2) [].
Definition e2 := toy_encrypt (fst e1) [] (nn 3) (nn 4) (bs "yo").
Definition a2 := toy_decrypt [] 0%Z toy_a (out e2).
Example C16_empty :
  snd a2 = Got (bs "yo") /\ map (fun kv => mkeys (snd kv)) (saved (fst a2)) = [[0]] /\
  toy_decrypt (mkeys (saved (fst a2))) 0%Z (fst a2) (out e1) = (set_saved (fst a2) [], Fail).
Proof. vm_compute. auto. Qed.

(** C18: message 81 of the first chain is too far, message 80 is not. *)
Fixpoint burst (n : nat) (r : ratchet) : ratchet := match n with O => r | S k => burst k (fst (toy_encrypt r [] (nn 1) (nn 2) (bs "x"))) end.
Definition msg (n : nat) : bytes := out (toy_encrypt (burst n toy_b) [] (nn 1) (nn 2) (bs "x")).
Example C18_gap_case : toy_decrypt [] 0%Z toy_a (msg 81) = (toy_a, Fail).
Proof.
  eapply C18_gap with (h := header_plain 81 0 (toy_base (toy_xs 1)) (nn 2)).
  - intros hk h _. reflexivity.
  - left. split; [reflexivity|]. split; [vm_compute; reflexivity|]. vm_compute. reflexivity.
Qed.
Example C18_limit : let '(r, o) := toy_decrypt [] 0%Z toy_a (msg 80) in
  o = Got (bs "x") /\ map (fun kv => length (mkeys (snd kv))) (saved r) = [80%nat].
Proof. vm_compute. auto. Qed.
Example C18_past_case : let w := fst (toy_run (start toy_a toy_b) before_hi) in
  let r := w_r w true in
  exists h, is_zero_key (recv_header r) = false /\ toy_unseal (recv_header r) (ct_nonce ct1) (ct_header ct1) = Some h /\
    h_num h < recv_count r /\ snd (toy_decrypt (mkeys (saved r)) 0%Z r ct1) = Got (bs "hi").
Proof. vm_compute. eexists. auto. Qed.
Definition r_end : ratchet :=
  mkRatchet (root_key toy_a) (send_header toy_a) (recv_header toy_a) (next_send_header toy_a) (next_recv_header toy_a)
    (send_chain toy_a) (recv_chain toy_a) (send_private toy_a) (recv_public toy_a)
    (send_count toy_a) (2 ^ 32 - 3) (prev_count toy_a) (ratchet_flag toy_a) (saved toy_a)
    (my_half toy_a) (their_half toy_a) (kx_private toy_a).
Definition ct_end : bytes :=
  nn 1 ++ toy_seal (recv_header toy_a) (nn 1) (header_plain (2 ^ 32 - 1) 0 (toy_base (toy_xs 1)) (nn 2)) ++ [1; 2; 3].
Example C18_forever_case : toy_decrypt [] 0%Z r_end ct_end = (r_end, Hang).
Proof.
  refine (proj1 (C18_forever toy_hmac toy_sha toy_x25519 toy_unseal [] 0%Z r_end ct_end
    (header_plain (2 ^ 32 - 1) 0 (toy_base (toy_xs 1)) (nn 2)) _ _ _ _ _ _ _ _)); try (vm_compute; reflexivity).
  - apply Nat.leb_le. vm_compute. reflexivity.
  - vm_compute. discriminate.
Qed.

(** C20: the exchange of [toy_established]; completing without having sent a half. *)
Example C20_case :
  exists a1 b1 kx_a kx_b a b,
    fill_kx toy_base toy_seal toy_scrypt toy_encap (new_ratchet [50]) [8] [1] (repeat 0 32) (nn 7) = (a1, Ok kx_a) /\
    fill_kx toy_base toy_seal toy_scrypt toy_encap (new_ratchet [101]) [7] [2] (repeat 1 32) (nn 8) = (b1, Ok kx_b) /\
    complete_kx toy_hmac toy_sha toy_unseal toy_scrypt toy_decap a1 [7] kx_b true = (a, Ok tt) /\
    complete_kx toy_hmac toy_sha toy_unseal toy_scrypt toy_decap b1 [8] kx_a false = (b, Ok tt) /\
    send_chain b = recv_chain a /\ send_chain b = [1; 2; 9] /\
    snd (complete_kx toy_hmac toy_sha toy_unseal toy_scrypt toy_decap (new_ratchet [50]) [7] kx_b true) = Panic.
Proof. do 6 eexists. repeat (split; [vm_compute; reflexivity|]). vm_compute. reflexivity. Qed.

(** C15: "yo", the first message to arrive. *)
Definition en_yo : entry := match log1 with e :: _ => e | [] => mkEntry false (0%nat, 0, 0) [] [] end.
Example C15_first_case :
  toy_answer (fst (toy_run (start toy_a toy_b) sends1)) (Recv true (fun l => l) 0 (en_ct en_yo)) = Some (en_plain en_yo).
Proof.
  eapply C15_first_delivery with (E := 100%nat) (sk := toy_sk);
    [apply toy_box|reflexivity|apply toy_keys|apply toy_established| |cbn; lia|reflexivity|left; reflexivity|reflexivity|discriminate
    |vm_compute; discriminate|vm_compute; discriminate|].
  - apply fairb_ok; [|vm_compute; reflexivity]. repeat constructor; cbn; auto.
  - intros evs1 evs2 o t E. assert (I : In (Recv true o t (en_ct en_yo)) sends1) by (rewrite E; apply in_or_app; right; left; auto).
    destruct I as [I|[I|[]]]; discriminate.
Qed.
Example en_yo_plain : en_plain en_yo = bs "yo".
Proof. reflexivity. Qed.
