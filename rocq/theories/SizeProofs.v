(** Lengths of encodings. *)
From Verif Require Import Base XdrModel XdrProofs RpcModel RpcProofs StrconvModel.
Local Open Scope N_scope.

Definition len {A} (l : list A) : N := N.of_nat (length l).
(** The length rounded up to a multiple of four. *)
Definition padded (n : N) : N := n + pad_len n.

Lemma len_app {A} (a b : list A) : len (a ++ b) = len a + len b.
Proof. unfold len. rewrite app_length. lia. Qed.
Lemma len_be k n : len (be k n) = N.of_nat k.
Proof. unfold len. now rewrite be_length. Qed.
Lemma len_nil {A} : len (@nil A) = 0.
Proof. reflexivity. Qed.
Lemma len_cons {A} (x : A) l : len (x :: l) = 1 + len l.
Proof. unfold len. cbn [length]. lia. Qed.

Lemma padded_spec n : padded n = 4 * ((n + 3) / 4).
Proof.
  unfold padded, pad_len. pose proof (N.div_mod n 4 ltac:(lia)) as D. pose proof (N.mod_lt n 4 ltac:(lia)) as M.
  set (q := n / 4) in *. set (r := n mod 4) in *.
  assert (C : r = 0 \/ r = 1 \/ r = 2 \/ r = 3) by lia.
  destruct C as [C|[C|[C|C]]]; rewrite C in *.
  - change ((4 - 0) mod 4) with 0. replace (n + 3) with (3 + q * 4) by lia. rewrite N.div_add by lia. change (3 / 4) with 0. lia.
  - change ((4 - 1) mod 4) with 3. replace (n + 3) with (0 + (q + 1) * 4) by lia. rewrite N.div_add by lia. change (0 / 4) with 0. lia.
  - change ((4 - 2) mod 4) with 2. replace (n + 3) with (1 + (q + 1) * 4) by lia. rewrite N.div_add by lia. change (1 / 4) with 0. lia.
  - change ((4 - 3) mod 4) with 1. replace (n + 3) with (2 + (q + 1) * 4) by lia. rewrite N.div_add by lia. change (2 / 4) with 0. lia.
Qed.
Lemma padded_bounds n : n <= padded n <= n + 3.
Proof.
  rewrite padded_spec. pose proof (N.div_mod (n + 3) 4 ltac:(lia)). pose proof (N.mod_lt (n + 3) 4 ltac:(lia)). lia.
Qed.
Lemma padded_mult n : padded n mod 4 = 0.
Proof. rewrite padded_spec, N.mul_comm. now apply N.mod_mul. Qed.

Lemma len_fixed s : len (enc_fixed s) = padded (len s).
Proof. unfold enc_fixed. rewrite len_app. unfold len at 2. rewrite repeat_length, N2Nat.id. reflexivity. Qed.
Lemma len_opaque s : len (enc xopaque s) = 4 + padded (len s).
Proof. cbn [enc xopaque]. rewrite len_app, len_be, len_fixed. reflexivity. Qed.

Lemma len_Message cmd ts c t : len (enc Message_codec (mkMessage cmd ts c t)) = 20 + padded (len cmd).
Proof.
  cbn [enc Message_codec xiso xpair fst snd Message_Command Message_TimeStamp Message_Cleartext Message_Tag].
  rewrite !len_app, len_opaque. cbn [enc xint64 xbool xuint32]. rewrite !len_be. lia.
Qed.

Lemma dec_digits_short f n : (length (dec_digits f n) <= f)%nat.
Proof.
  revert n. induction f as [|f IH]; intros n; cbn [dec_digits]; [auto|]. destruct (n <? 10); [cbn; lia|].
  rewrite app_length. specialize (IH (n / 10)). cbn [length]. lia.
Qed.
Lemma len_format n : len (format_uint n) <= 20.
Proof. unfold len, format_uint. pose proof (dec_digits_short 20 n). lia. Qed.

Lemma dec_digits_len f n k : n < 10 ^ N.of_nat (S k) -> (length (dec_digits f n) <= S k)%nat.
Proof.
  revert n k. induction f as [|f IH]; intros n k H; cbn [dec_digits]; [cbn; lia|].
  destruct (N.ltb_spec n 10) as [L|L]; [cbn; lia|]. rewrite app_length. cbn [length].
  destruct k as [|k]; [change (10 ^ N.of_nat 1) with 10 in H; lia|].
  enough (length (dec_digits f (n / 10)) <= S k)%nat by lia. apply IH. apply N.div_lt_upper_bound; [lia|].
  rewrite <- N.pow_succ_r'. replace (N.succ (N.of_nat (S k))) with (N.of_nat (S (S k))) by lia. exact H.
Qed.
Lemma short_format n : n < 10 ^ 19 -> len (format_uint n) <= 19.
Proof. intros H. unfold len, format_uint. pose proof (dec_digits_len 20 n 18 H). lia. Qed.
