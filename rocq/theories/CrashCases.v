(** Concrete cases of the theorems about a dying client: an instance of the
    cryptography with 32-byte keys that satisfies the assumptions. *)
From Verif Require Import Base XdrModel RpcModel BlobModel RatchetModel RatchetProofs RatchetSaveProofs RatchetConvModel RatchetConvProofs
  SessionProps RatchetProps RatchetCases CrashModel CrashProofs CrashDead CrashProps.
Local Open Scope N_scope.

(** The label adds one at the place given by its length; the hash keeps the root key
    and adds the shared secret at the last place. *)
Definition q_hmac (k l : bytes) : bytes := map (fun i => nth i k 0 + if Nat.eqb i (length l) then 1 else 0) (seq 0 32).
Definition q_sha (m : bytes) : bytes := map (fun i => nth (15 + i) m 0 + if Nat.eqb i 31 then nth 47 m 0 else 0) (seq 0 32).
Definition q_xs (e : nat) : bytes := (100 + N.of_nat e) :: repeat 0 31.
Definition q_sk : bytes := repeat 0 17 ++ [2] ++ repeat 0 14.
Definition q_half (x : N) : option bytes := Some (x :: repeat 0 31).
Definition q_a : ratchet := start_alice q_hmac toy_base q_xs q_sk (q_half 1) (q_half 2).
Definition q_b : ratchet := start_bob q_hmac q_xs q_sk (q_half 1) (q_half 2).
Notation q_step := (step q_hmac q_sha toy_x25519 toy_base toy_seal toy_unseal q_xs).
Notation q_run := (run q_hmac q_sha toy_x25519 toy_base toy_seal toy_unseal q_xs).
Notation q_hk := (hk q_hmac q_sha toy_x25519 toy_base q_xs q_sk).
Notation q_mk := (mk q_hmac q_sha toy_x25519 toy_base q_xs q_sk).
Notation q_ck := (ck q_hmac q_sha toy_x25519 toy_base q_xs q_sk).
Notation q_km := (km q_hmac q_sha toy_x25519 toy_base q_xs q_sk).
Notation q_fair := (fair q_hmac q_sha toy_x25519 toy_base toy_seal toy_unseal q_xs q_sk 11).

Lemma q_keys : keys_law q_hmac q_sha toy_x25519 toy_base q_xs q_sk 11.
Proof.
  assert (C : forall e, (1 <= e <= 11)%nat -> In e (seq 1 11)) by (intros; apply in_seq; lia).
  split; [|split].
  - intros e. unfold dh, toy_x25519, toy_base, q_xs. cbn [pred hd]. split; auto. do 2 f_equal. lia.
  - assert (X : forallb (fun e => forallb (fun e' => implb (eqb (q_hk e) (q_hk e')) (Nat.eqb e e')) (seq 1 11)) (seq 1 11) = true)
      by (vm_compute; reflexivity).
    intros e e' H H' Q. apply C in H, H'. rewrite forallb_forall in X. specialize (X _ H).
    rewrite forallb_forall in X. specialize (X _ H'). rewrite Q, eqb_refl in X. now apply Nat.eqb_eq in X.
  - assert (X : forallb (fun e => negb (is_zero_key (q_hk e))) (seq 1 11) = true) by (vm_compute; reflexivity).
    intros e H. apply C in H. rewrite forallb_forall in X. specialize (X _ H). now apply negb_true_iff in X.
Qed.

Lemma q_established :
  established q_hmac q_sha toy_base toy_seal toy_unseal toy_scrypt toy_encap toy_decap q_xs q_sk q_a q_b.
Proof.
  exists eq, [7], [7], [8], [8], (50 :: repeat 0 31), (1 :: repeat 0 31), (2 :: repeat 0 31), (repeat 0 32), (repeat 1 32), (nn 7), (nn 8).
  do 4 eexists. split.
  { intros coins pk sk <-. unfold toy_decap, toy_encap. cbn [fst snd]. rewrite app_length.
    replace (length coins + length pk - length pk)%nat with (length coins) by lia. now rewrite firstn_app_len. }
  do 6 (split; [reflexivity|]). split; [reflexivity|]. split; [reflexivity|].
  split; [vm_compute; reflexivity|]. split; [vm_compute; reflexivity|]. vm_compute; reflexivity.
Qed.

Lemma q_setting : setting q_hmac q_sha toy_x25519 toy_base toy_seal toy_unseal q_xs q_sk 11 q_a q_b 0 1000000000.
Proof.
  constructor; try reflexivity.
  - apply toy_box.
  - apply q_keys.
  - exists toy_scrypt, toy_encap, toy_decap. apply q_established.
  - repeat split.
  - split; [lia|reflexivity].
  - split; [vm_compute; discriminate|lia].
Qed.

Lemma q_key_law : key_law toy_seal toy_unseal.
Proof. intros k n k' n' m x U. apply toy_open in U. unfold toy_seal in U. apply tag_key in U. intuition. Qed.

(** Places 14 and 8 of a message key tell its index and its chain. *)
Lemma nth_seq (f : nat -> N) n i : (i < n)%nat -> nth i (map f (seq 0 n)) 0 = f i.
Proof.
  intros H. rewrite (nth_indep _ 0 (f 0%nat)) by now rewrite map_length, seq_length. now rewrite map_nth, seq_nth.
Qed.
Lemma nth_q k l i : (i < 32)%nat -> nth i (q_hmac k l) 0 = nth i k 0 + if Nat.eqb i (length l) then 1 else 0.
Proof. intros H. unfold q_hmac. now rewrite nth_seq. Qed.
Lemma nth_next k x : nth 31 (q_sha (root_update_label ++ q_hmac k root_label ++ [x])) 0 = nth 31 k 0 + x.
Proof.
  unfold q_sha. rewrite nth_seq by lia. change (Nat.eqb 31 31) with true. cbv iota.
  change (15 + 31)%nat with (length root_update_label + 31)%nat. change 47%nat with (length root_update_label + 32)%nat.
  rewrite !app_nth2_plus. rewrite app_nth1 by (unfold q_hmac; rewrite map_length, seq_length; lia).
  rewrite nth_q by lia. change (Nat.eqb 31 (length root_label)) with false. rewrite N.add_0_r. f_equal.
Qed.
Lemma nth_key k i : nth 31 (mkey_at q_hmac (q_hmac k chain_label) i) 0 = nth 31 k 0.
Proof.
  unfold mkey_at. rewrite nth_q by lia. change (Nat.eqb 31 (length message_label)) with false. rewrite N.add_0_r.
  induction i as [|n IH]; [cbn [chain_at]; rewrite nth_q by lia; apply N.add_0_r|]. cbn [chain_at]. rewrite nth_q by lia. rewrite IH. apply N.add_0_r.
Qed.
Lemma count_q e i : (1 <= e <= 11)%nat -> nth 14 (q_mk e i) 0 = i /\ nth 8 (q_mk e i) 0 = N.of_nat (pred e).
Proof.
  intros H.
  assert (X : forall n, nth 14 (q_ck e n) 0 = N.of_nat n /\ nth 8 (q_ck e n) 0 = N.of_nat (pred e)).
  { induction n as [|n [IH1 IH2]].
    - assert (C : In e (seq 1 11)) by (apply in_seq; lia).
      assert (Y : forallb (fun e => N.eqb (nth 14 (q_ck e 0) 0) 0 && N.eqb (nth 8 (q_ck e 0) 0) (N.of_nat (pred e)))
                   (seq 1 11) = true) by (vm_compute; reflexivity).
      rewrite forallb_forall in Y. specialize (Y _ C). apply andb_prop in Y as [Y1 Y2].
      apply N.eqb_eq in Y1, Y2. auto.
    - cbn [ck]. rewrite !nth_q, IH1, IH2 by lia. change (length step_label) with 14%nat. cbn [Nat.eqb]. split; lia. }
  unfold mk. destruct (X (N.to_nat i)) as [X1 X2]. rewrite !nth_q, X1, X2 by lia. change (length message_label) with 11%nat. cbn [Nat.eqb]. split; lia.
Qed.

Definition q_made (log : list entry) (ct : bytes) : bool :=
  existsb (fun en => let e := en_epoch en in
    eqb (ct_nonce (en_ct en)) (ct_nonce ct) && eqb (ct_header (en_ct en)) (ct_header ct) &&
    Nat.leb 1 e && Nat.leb e 11 &&
    eqb (ct_header ct) (firstn (length (ct_header ct) - 16) (ct_header ct) ++ toy_tag (q_hk e) (ct_nonce ct))) log &&
   existsb (fun en => let e := en_epoch en in
     eqb (ct_body (en_ct en)) (ct_body ct) && Nat.leb 1 e && Nat.leb e 11 &&
     existsb (fun n => eqb (ct_body ct) (firstn (length (ct_body ct) - 16) (ct_body ct) ++ toy_tag (q_mk e (en_index en)) n))
       [nn 2; nn 4; nn 6]) log.
Lemma q_unforged log ct : q_made log ct = true ->
  unforged q_hmac q_sha toy_x25519 toy_base toy_unseal q_xs q_sk 11 log ct.
Proof.
  unfold q_made. intros H. apply andb_prop in H as [H1 H2]. apply existsb_exists in H1 as (en & I & H1).
  cbv zeta in H1. rewrite !andb_true_iff in H1. destruct H1 as ((((A1 & A2) & A3) & A4) & A5).
  apply eqb_true in A1, A2, A5. apply Nat.leb_le in A3, A4.
  apply existsb_exists in H2 as (en' & I' & H2).
  cbv zeta in H2. rewrite !andb_true_iff in H2. destruct H2 as (((B1 & B2) & B3) & B4).
  apply existsb_exists in B4 as (n' & _ & B4). apply eqb_true in B1, B4. apply Nat.leb_le in B2, B3.
  split.
  - intros e h He U. apply toy_open in U. rewrite A5 in U. apply tag_key in U as [U _].
    destruct q_keys as (_ & K & _). apply K in U; auto. subst. exists en. auto.
  - intros e i n m He U. apply toy_open in U. rewrite B4 in U. apply tag_key in U as [U _].
    destruct (count_q e i He) as [X1 X2]. destruct (count_q (en_epoch en') (en_index en')) as [Y1 Y2]; [lia|]. rewrite U in *.
    exists en'. repeat split; auto; lia.
Qed.
Fixpoint q_fairb (w : world) (evs : list event) : bool :=
  match evs with
  | [] => true
  | ev :: evs' =>
      match ev with
      | Send who hn mn msg =>
          Nat.eqb (length hn) 24 && Nat.eqb (length mn) 24 && forallb (fun en => negb (eqb (ct_nonce (en_ct en)) hn)) (w_log w)
      | Recv who order now ct => q_made (w_log w) ct
      end && q_fairb (fst (q_step w ev)) evs'
  end.
Lemma q_fairb_ok evs : forall w,
  Forall (fun ev => match ev with Recv _ order _ _ => forall l, Permutation l (order l) | _ => True end) evs ->
  q_fairb w evs = true -> q_fair w evs.
Proof.
  induction evs as [|ev evs IH]; intros w F H; cbn [fair q_fairb] in *; auto.
  inversion F; subst. apply andb_prop in H as [H H']. split; auto. destruct ev.
  - rewrite !andb_true_iff in H. destruct H as ((A1 & A2) & A3).
    apply Nat.eqb_eq in A1, A2. rewrite forallb_forall in A3. repeat split; auto.
    intros en I E. specialize (A3 _ I). rewrite E, eqb_refl in A3. discriminate.
  - split; auto. now apply q_unforged.
Qed.

(** Both directories; bob sends "hi"; alice's client dies twice before it has "hi"
    and once after it is saved and before it is shown. *)
Notation q_transmit := (transmit q_hmac q_sha toy_x25519 toy_base toy_seal).
Notation q_receive := (receive q_hmac q_sha toy_x25519 toy_unseal).
Notation q_reach := (reach q_hmac q_sha toy_x25519 toy_base toy_seal toy_unseal q_xs q_a q_b 0 1000000000).
Notation q_encrypt := (encrypt q_hmac q_sha toy_x25519 toy_base toy_seal).
Notation q_decrypt := (decrypt q_hmac q_sha toy_x25519 toy_unseal).
Definition dir_of (r : ratchet) : dir := [(ratchet_file, image 5 r)].
Definition D0 (who : bool) : dir := dir_of (if who then q_a else q_b).
Definition get (o : option ratchet) : ratchet := match o with Some r => r | None => q_a end.
Definition disk (d : dir) : ratchet := get (load q_sk d).
Definition q1 := q_encrypt (disk (D0 false)) (q_xs 1) (nn 1) (nn 2) (bs "hi").
Definition hi : bytes := out q1.
Definition d_b1 : dir := mset (D0 false) ratchet_file (image 6 (fst q1)).
Definition same_order (l : list bytes) : list bytes := l.
Definition q2 := q_decrypt (mkeys (saved (disk (D0 true)))) 7 (disk (D0 true)) hi.
Definition d_a1 : dir := mset (D0 true) (ratchet_file ++ bs "123") (firstn 10 (image 7 (fst q2))).
Definition q3 := q_decrypt (mkeys (saved (disk d_a1))) 8 (disk d_a1) hi.
Definition d_a2 : dir := mset d_a1 ratchet_file (image 8 (fst q3)).
Definition done_hi : list event := [Send false (nn 1) (nn 2) (bs "hi"); Recv true same_order 8 hi].
Definition D_hi : bool -> dir := set (set (set D0 false d_b1) true d_a1) true d_a2.

Lemma case_reach1 : q_reach [Send false (nn 1) (nn 2) (bs "hi")] (set (set D0 false d_b1) true d_a1).
Proof.
  assert (R0 : q_reach [] D0).
  { apply (Re_start _ _ _ _ _ _ _ _ _ _ _ _ 5); [lia|]. intros [|]; reflexivity. }
  assert (R1 : q_reach [Send false (nn 1) (nn 2) (bs "hi")] (set D0 false d_b1)).
  { apply (Re_send _ _ _ _ _ _ _ _ _ _ _ [] D0 false (q_xs 1) (nn 1) (nn 2) (bs "hi") 6 d_b1 (Some hi) true R0); [lia| |split; reflexivity].
    apply (Tx_sent _ _ _ _ _ _ _ _ _ _ _ q_sk (disk (D0 false)) (fst q1)); [vm_compute; reflexivity|vm_compute; reflexivity|constructor]. }
  apply (Re_recv _ _ _ _ _ _ _ _ _ _ _ _ _ true same_order hi 7 d_a1 None false R1); [lia|]. rewrite set_ne with (who := false).
  apply (Rx_died _ _ _ _ _ _ _ _ q_sk (disk (D0 true)) (fst q2) (bs "hi")); [vm_compute; reflexivity|vm_compute; reflexivity|].
  unfold d_a1. constructor; [discriminate|reflexivity].
Qed.
Lemma case_reach2 : q_reach done_hi D_hi.
Proof.
  refine (Re_recv _ _ _ _ _ _ _ _ _ _ _ _ _ true same_order hi 8 d_a2 None true case_reach1 _ _); [lia|]. rewrite set_eq.
  apply (Rx_died _ _ _ _ _ _ _ _ q_sk (disk d_a1) (fst q3) (bs "hi")); [vm_compute; reflexivity|vm_compute; reflexivity|constructor].
Qed.
Example C45_crashes_case : forall who p, exists r, load p (D_hi who) = Some r /\
  forall ops, outputs q_hmac q_sha toy_x25519 toy_base toy_seal toy_unseal r ops =
    outputs q_hmac q_sha toy_x25519 toy_base toy_seal toy_unseal (w_r (fst (q_run (start q_a q_b) done_hi)) who) ops.
Proof. exact (C45_crashes _ _ _ _ _ _ _ _ _ _ _ _ _ q_setting done_hi D_hi case_reach2 eq_refl). Qed.
Definition en_hi : entry := mkEntry false (1%nat, 0, 0) (bs "hi") hi.
Example C45_readable_case : forall p, exists r r', load p (set (set D0 false d_b1) true d_a1 true) = Some r /\
  q_decrypt (same_order (mkeys (saved r))) 8 r (en_ct en_hi) = (r', Got (en_plain en_hi)).
Proof.
  refine (C45_readable _ _ _ _ _ _ _ _ _ _ _ _ _ q_setting _ _ case_reach1 eq_refl _ en_hi true same_order 8
    _ _ eq_refl _ _ _ _).
  - cbn. lia.
  - apply q_fairb_ok; [|vm_compute; reflexivity]. repeat constructor; cbn; auto.
  - vm_compute. left. reflexivity.
  - discriminate.
  - vm_compute. discriminate.
  - vm_compute. discriminate.
  - intros o t [H|[]]. discriminate.
Qed.

(** Bob dies after "hi" is handed over and before the ratchet is saved, and then
    sends "yo": alice, who read "hi", refuses "yo", and reads what follows. *)
Definition q4 := q_encrypt (disk (D0 false)) (q_xs 1) (nn 3) (nn 4) (bs "yo").
Definition yo : bytes := out q4.
Definition d_b2 : dir := mset (D0 false) ratchet_file (image 6 (fst q4)).
Definition r_a : ratchet := w_r (fst (q_run (start q_a q_b) done_hi)) true.
Lemma case_lost : forall order' t', q_decrypt (order' (mkeys (saved r_a))) t' r_a yo = (r_a, Fail).
Proof.
  unshelve epose proof (C45_one_lost _ _ _ _ _ _ _ _ _ _ _ _ _ q_setting q_key_law [] D0 _ eq_refl false eq_refl (q_xs 1) (nn 1) (nn 2) (bs "hi") 6 (D0 false) hi _
    (q_xs 1) (nn 3) (nn 4) (bs "yo") 6%Z d_b2 yo eq_refl eq_refl _ _) as [_ L].
  - apply (Re_start _ _ _ _ _ _ _ _ _ _ _ _ 5); [lia|]. intros [|]; reflexivity.
  - apply (Tx_sent _ _ _ _ _ _ _ _ _ _ _ q_sk (disk (D0 false)) (fst q1)); [vm_compute; reflexivity|vm_compute; reflexivity|constructor].
  - lia.
  - apply (Tx_sent _ _ _ _ _ _ _ _ _ _ _ q_sk (disk (D0 false)) (fst q4)); [vm_compute; reflexivity|vm_compute; reflexivity|constructor].
  - apply (L [] same_order 8%Z (bs "hi") []).
    + apply q_fairb_ok; [|vm_compute; reflexivity]. repeat constructor; cbn; auto.
    + cbn. lia.
    + reflexivity.
    + vm_compute. reflexivity.
Qed.
Example C45_lost_case :
  snd (q_decrypt (mkeys (saved r_a)) 9 r_a yo) = Fail /\
  snd (q_decrypt (mkeys (saved r_a)) 9 r_a (out (q_encrypt (disk d_b2) (q_xs 1) (nn 5) (nn 6) (bs "hey")))) = Got (bs "hey").
Proof. split; [rewrite (case_lost same_order); reflexivity|vm_compute; reflexivity]. Qed.

(** Alice dies after handing over "hi", the first of a new chain, which bob reads:
    what they send afterwards with other private keys is lost, both ways. *)
Definition q5 := q_encrypt (disk (D0 true)) (q_xs 2) (nn 1) (nn 2) (bs "hi").
Definition hi2 : bytes := out q5.
Definition q6 := q_decrypt (mkeys (saved (disk (D0 false)))) 7 (disk (D0 false)) hi2.
Definition d_b3 : dir := mset (D0 false) ratchet_file (image 7 (fst q6)).
Definition q_drawn (p : bytes) : Prop := hd 0 p <> 102.
Notation q_acts := (do_acts q_hmac q_sha toy_x25519 toy_base toy_seal toy_unseal).
Definition s0 : after := mkAfter (fun x => if x then disk (D0 true) else disk d_b3) (fun _ => []).
Lemma case_dead acts : acts_ok q_hmac q_sha toy_x25519 toy_base toy_seal toy_unseal q_drawn s0 acts ->
  Forall (fun x => match fst x with Hear _ _ _ _ => snd x = None | _ => True end) (q_acts s0 acts).
Proof.
  refine (C45_dead _ _ _ _ _ _ _ _ _ _ _ _ _ q_setting q_key_law [] D0 _ eq_refl _ true eq_refl (nn 1) (nn 2) (bs "hi") 6%Z (D0 true) hi2 same_order 7%Z d_b3
    (Some (bs "hi")) _ _ _ _ _ q_drawn _ _ q_sk q_sk _ _ _ _ acts).
  - apply (Re_start _ _ _ _ _ _ _ _ _ _ _ _ 5); [lia|]. intros [|]; reflexivity.
  - cbn. lia.
  - lia.
  - lia.
  - apply (Tx_sent _ _ _ _ _ _ _ _ _ _ _ q_sk (disk (D0 true)) (fst q5)); [vm_compute; reflexivity|vm_compute; reflexivity|constructor].
  - apply (Rx_handled _ _ _ _ _ _ _ _ q_sk (disk (D0 false)) (fst q6)); [vm_compute; reflexivity|vm_compute; reflexivity|constructor].
  - apply q_fairb_ok; [|vm_compute; reflexivity]. repeat constructor; cbn; auto.
  - intros p s e i j Dp [= <-] He Q. apply (f_equal (fun k => nth 31 k 0)) in Q. unfold q_drawn in Dp.
    change (i_cur (w_i (fst (q_run (start q_a q_b) [])) true)) with 1%nat in Q.
    rewrite !nth_key, nth_next in Q. assert (He' : (1 <= e <= 2)%nat) by exact He. clear He. assert (He : e = 1%nat \/ e = 2%nat) by lia.
    change (hd 0 (toy_base (q_xs 1))) with 110 in Q.
    destruct He as [-> | ->]; change (nth 31 (q_km 1) 0) with 0 in Q; [lia|]. change (nth 31 (q_km 2) 0) with 212 in Q. lia.
  - intros p q s s' s'' i j Dp _ [= <-] [= <-] [= <-] Q. apply (f_equal (fun k => nth 31 k 0)) in Q. unfold q_drawn in Dp.
    change (i_cur (w_i (fst (q_run (start q_a q_b) [])) true)) with 1%nat in Q.
    rewrite !nth_key, !nth_next in Q. change (nth 31 (q_km 1) 0) with 0 in Q. change (nth 31 (q_km 2) 0) with 212 in Q.
    change (hd 0 (toy_base (q_xs 1))) with 110 in Q. change (hd 0 (toy_base (q_xs 2))) with 111 in Q.
    unfold toy_base in Q. cbn [hd] in Q. lia.
  - vm_compute. reflexivity.
  - vm_compute. reflexivity.
Qed.
Definition later : list act :=
  [Say true (9 :: repeat 0 31) (nn 3) (nn 4) (bs "a"); Hear false same_order 9 0; Say false (8 :: repeat 0 31) (nn 5) (nn 6) (bs "b"); Hear true same_order 9 0].
Example C45_dead_case : map snd (q_acts s0 later) = [None; None; None; None] /\
  map (fun x => length (af_sent (fst (do_act q_hmac q_sha toy_x25519 toy_base toy_seal toy_unseal s0 x)) true)) (firstn 1 later) = [1%nat].
Proof. vm_compute. auto. Qed.
Example C45_dead_case2 :
  Forall (fun x => match fst x with Hear _ _ _ _ => snd x = None | _ => True end) (q_acts s0 later).
Proof.
  apply case_dead. unfold later. cbn [acts_ok].
  repeat (split; [first [exact Logic.I|split; [unfold q_drawn; cbn; discriminate|split; reflexivity]]|]). exact Logic.I.
Qed.
