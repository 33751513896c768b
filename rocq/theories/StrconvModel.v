(** Decimal numbers as strconv formats and parses them, and base64 (StdEncoding). *)
From Verif Require Import Base XdrModel XdrProofs.
Local Open Scope N_scope.

(** strconv.FormatUint(n, 10); 20 digits suffice for a uint64. *)
Fixpoint dec_digits (fuel : nat) (n : N) : bytes :=
  match fuel with
  | O => []
  | S f => if n <? 10 then [48 + n] else dec_digits f (n / 10) ++ [48 + n mod 10]
  end.
Definition format_uint (n : N) : bytes := dec_digits 20 n.

Definition is_digit (c : N) : bool := (48 <=? c) && (c <=? 57).
Definition digits_value (s : bytes) : N := fold_left (fun v c => 10 * v + (c - 48)) s 0.

(** strconv.ParseUint(s, 10, 64): None for a syntax or range error. *)
Definition parse_uint (s : bytes) : option N :=
  match s with
  | [] => None
  | _ => if forallb is_digit s && (digits_value s <? 2 ^ 64) then Some (digits_value s) else None
  end.

(** strconv.ParseInt(s, 10, 64). *)
Definition parse_int (s : bytes) : option Z :=
  let go neg s :=
    match s with
    | [] => None
    | _ => if forallb is_digit s then
             let v := digits_value s in
             if neg : bool then if v <=? 2 ^ 63 then Some (- Z.of_N v)%Z else None
             else if v <? 2 ^ 63 then Some (Z.of_N v) else None
           else None
    end in
  match s with
  | [] => None
  | c :: r => if eqb c 43 then go false r else if eqb c 45 then go true r else go false s
  end.

Lemma digits_value_app a b : digits_value (a ++ b) = fold_left (fun v c => 10 * v + (c - 48)) b (digits_value a).
Proof. unfold digits_value. now rewrite fold_left_app. Qed.

Lemma dec_digits_spec f : forall n, n < 10 ^ N.of_nat f -> (0 < f)%nat ->
  digits_value (dec_digits f n) = n /\ forallb is_digit (dec_digits f n) = true /\ dec_digits f n <> [].
Proof.
  induction f as [|f IH]; intros n H F; [lia|]. cbn [dec_digits]. destruct (N.ltb_spec n 10) as [L|L].
  - unfold digits_value. cbn [fold_left forallb]. split; [lia|]. split; [|discriminate].
    unfold is_digit. rewrite andb_true_r, andb_true_iff, !N.leb_le. lia.
  - assert (X : n / 10 < 10 ^ N.of_nat f).
    { rewrite Nat2N.inj_succ, N.pow_succ_r' in H. apply N.div_lt_upper_bound; lia. }
    assert (f <> 0%nat) by (intros ->; cbn in X; assert (n / 10 = 0) by lia; apply N.div_small_iff in H0; lia).
    destruct (IH (n / 10) X) as (I1 & I2 & I3); [lia|].
    pose proof (N.mod_lt n 10). split; [|split].
    + rewrite digits_value_app, I1. cbn [fold_left]. pose proof (N.div_mod n 10). lia.
    + rewrite forallb_app, I2. cbn [forallb]. unfold is_digit. rewrite andb_true_r. cbn [andb].
      rewrite andb_true_iff, !N.leb_le. lia.
    + intros E. apply app_eq_nil in E. destruct E; discriminate.
Qed.

Lemma format_parse n : n < 2 ^ 64 -> parse_uint (format_uint n) = Some n.
Proof.
  intros H. unfold format_uint. destruct (dec_digits_spec 20 n) as (V & D & E); [|lia|].
  - eapply N.lt_trans; [exact H|reflexivity].
  - unfold parse_uint. destruct (dec_digits 20 n) as [|c r] eqn:X; [congruence|]. rewrite D, V.
    destruct (N.ltb_spec n (2 ^ 64)); [auto|lia].
Qed.

Lemma format_inj a b : a < 2 ^ 64 -> b < 2 ^ 64 -> format_uint a = format_uint b -> a = b.
Proof. intros A B E. apply format_parse in A, B. congruence. Qed.

Lemma format_digits n : n < 2 ^ 64 -> format_uint n <> [] /\ forallb is_digit (format_uint n) = true.
Proof.
  intros H. destruct (dec_digits_spec 20 n) as (V & D & E); [|lia|auto].
  eapply N.lt_trans; [exact H|reflexivity].
Qed.

Lemma format_parse_int n : n < 2 ^ 63 -> parse_int (format_uint n) = Some (Z.of_N n).
Proof.
  intros H. unfold format_uint. destruct (dec_digits_spec 20 n) as (V & D & E); [|lia|].
  - eapply N.lt_trans; [exact H|reflexivity].
  - generalize dependent (dec_digits 20 n). intros d V D E. unfold parse_int. destruct d as [|c r]; [congruence|].
    assert (C : is_digit c = true) by (cbn [forallb] in D; apply andb_prop in D; exact (proj1 D)).
    unfold is_digit in C. apply andb_prop in C as [C1 C2]. apply N.leb_le in C1, C2.
    destruct (eqb_spec c 43); [lia|]. destruct (eqb_spec c 45); [lia|]. rewrite D, V.
    destruct (N.ltb_spec n (2 ^ 63)); [auto|lia].
Qed.

(** A number has 16 digits exactly from 10^15 to 10^16-1. *)
Lemma dec_length f : forall n k, n < 10 ^ N.of_nat f -> (0 < k)%nat -> (length (dec_digits f n) = k)%nat ->
  (0 < f)%nat -> n < 10 ^ N.of_nat k /\ (k = 1%nat \/ 10 ^ N.of_nat (k - 1) <= n).
Proof.
  induction f as [|f IH]; intros n k H K L F; [lia|]. cbn [dec_digits] in L. destruct (N.ltb_spec n 10) as [X|X].
  - cbn in L. subst. cbn. split; [lia|auto].
  - rewrite app_length in L. cbn [length] in L.
    assert (Y : n / 10 < 10 ^ N.of_nat f).
    { rewrite Nat2N.inj_succ, N.pow_succ_r' in H. apply N.div_lt_upper_bound; lia. }
    assert (f <> 0%nat) by (intros ->; cbn in Y; assert (E : n / 10 = 0) by lia; apply N.div_small_iff in E; lia).
    assert (k <> 1%nat).
    { intros ->. assert (L0 : length (dec_digits f (n / 10)) = 0%nat) by lia. apply length_zero_iff_nil in L0.
      destruct (dec_digits_spec f (n / 10) Y) as (_ & _ & NE); [lia|congruence]. }
    destruct (IH (n / 10) (k - 1)%nat Y) as [A B]; try lia.
    pose proof (N.div_mod n 10). pose proof (N.mod_lt n 10).
    replace k with (S (k - 1)) by lia. rewrite Nat2N.inj_succ, N.pow_succ_r'. split; [lia|]. right.
    replace (S (k - 1) - 1)%nat with (k - 1)%nat by lia. destruct B as [B|B].
    + rewrite B in *. cbn. lia.
    + replace (k - 1)%nat with (S (k - 1 - 1)) by lia. rewrite Nat2N.inj_succ, N.pow_succ_r'. lia.
Qed.

(** * Base64 *)

Definition b64_alphabet : bytes :=
  bs "ABCDEFGHIJKLMNOPQRSTUVWXYZabcdefghijklmnopqrstuvwxyz0123456789+/".
Definition b64_char (n : N) : N := nth (N.to_nat n) b64_alphabet 0.
Fixpoint index_of (c : N) (l : bytes) (i : N) : option N :=
  match l with [] => None | x :: r => if eqb x c then Some i else index_of c r (i + 1) end.
Definition b64_value (c : N) : option N := index_of c b64_alphabet 0.

(** encoding/base64 EncodeToString. *)
Fixpoint b64_encode (l : bytes) : bytes :=
  match l with
  | a :: b :: c :: r =>
      let n := a * 65536 + b * 256 + c in
      b64_char (n / 262144) :: b64_char ((n / 4096) mod 64) :: b64_char ((n / 64) mod 64) :: b64_char (n mod 64) :: b64_encode r
  | [a; b] =>
      let n := a * 65536 + b * 256 in
      [b64_char (n / 262144); b64_char ((n / 4096) mod 64); b64_char ((n / 64) mod 64); 61]
  | [a] =>
      let n := a * 65536 in
      [b64_char (n / 262144); b64_char ((n / 4096) mod 64); 61; 61]
  | [] => []
  end.

(** DecodeString: line breaks are ignored; groups of four, the last one padded. *)
Fixpoint b64_groups (l : bytes) : option bytes :=
  match l with
  | [] => Some []
  | c1 :: c2 :: c3 :: c4 :: r =>
      match b64_value c1, b64_value c2 with
      | Some v1, Some v2 =>
          match b64_value c3 with
          | None => if eqb c3 61 && eqb c4 61 && eqb r []
                    then Some [(v1 * 262144 + v2 * 4096) / 65536] else None
          | Some v3 =>
              match b64_value c4 with
              | None => if eqb c4 61 && eqb r []
                        then let n := v1 * 262144 + v2 * 4096 + v3 * 64 in Some [n / 65536; (n / 256) mod 256] else None
              | Some v4 =>
                  let n := v1 * 262144 + v2 * 4096 + v3 * 64 + v4 in
                  match b64_groups r with
                  | Some t => Some (n / 65536 :: (n / 256) mod 256 :: n mod 256 :: t)
                  | None => None
                  end
              end
          end
      | _, _ => None
      end
  | _ => None
  end.
Definition b64_decode (l : bytes) : option bytes :=
  b64_groups (filter (fun c => negb (eqb c 10 || eqb c 13)) l).

Lemma b64_value_char n : n < 64 -> b64_value (b64_char n) = Some n.
Proof.
  intros H. assert (X : forallb (fun k => match b64_value (b64_char (N.of_nat k)) with Some m => N.eqb m (N.of_nat k) | None => false end)
    (seq 0 64) = true) by (vm_compute; reflexivity).
  rewrite forallb_forall in X. specialize (X (N.to_nat n)). rewrite N2Nat.id in X.
  destruct (b64_value (b64_char n)); [|assert (false = true) by (apply X, in_seq; lia); discriminate].
  f_equal. apply N.eqb_eq, X, in_seq. lia.
Qed.

(** The characters used are letters, digits, '+', '/' and, at the end, '='. *)
Lemma b64_char_ok n : n < 64 -> 43 <= b64_char n <= 122.
Proof.
  intros H. assert (X : forallb (fun k => (43 <=? b64_char (N.of_nat k)) && (b64_char (N.of_nat k) <=? 122)) (seq 0 64) = true)
    by (vm_compute; reflexivity).
  rewrite forallb_forall in X. specialize (X (N.to_nat n)). rewrite N2Nat.id in X.
  assert (Y : (43 <=? b64_char n) && (b64_char n <=? 122) = true) by (apply X, in_seq; lia).
  apply andb_prop in Y as [Y1 Y2]. apply N.leb_le in Y1, Y2. lia.
Qed.

Lemma b64_chars l : Forall is_byte l -> Forall (fun c => 43 <= c <= 122) (b64_encode l).
Proof.
  assert (G : forall k l, (length l <= k)%nat -> Forall is_byte l -> Forall (fun c => 43 <= c <= 122) (b64_encode l)).
  2: { intros H. now apply (G (length l)). }
  clear l. induction k as [|k IH]; intros l L F; [destruct l; [constructor|cbn in L; lia]|].
  assert (M : forall x, x mod 64 < 64) by (intros; apply N.mod_lt; lia).
  assert (D : forall a b c, is_byte a -> is_byte b -> is_byte c -> (a * 65536 + b * 256 + c) / 262144 < 64).
  { unfold is_byte. intros. apply N.div_lt_upper_bound; lia. }
  assert (B0 : is_byte 0) by (unfold is_byte; lia).
  destruct l as [|a [|b [|c r]]]; cbn [b64_encode]; auto.
  - inversion F; subst. pose proof (D a 0 0 H1 B0 B0) as D1. rewrite N.mul_0_l, !N.add_0_r in D1.
    repeat (apply Forall_cons; [try (apply b64_char_ok; auto); lia|]). auto.
  - inversion F as [|? ? Fa F']; inversion F' as [|? ? Fb _]; subst. pose proof (D a b 0 Fa Fb B0) as D1. rewrite !N.add_0_r in D1.
    repeat (apply Forall_cons; [try (apply b64_char_ok; auto); lia|]). auto.
  - inversion F as [|? ? Fa F']; inversion F' as [|? ? Fb F'']; inversion F'' as [|? ? Fc F3]; subst.
    repeat (apply Forall_cons; [apply b64_char_ok; auto|]). apply IH; auto. cbn [length] in L. lia.
Qed.

Lemma b64_round l : Forall is_byte l -> b64_decode (b64_encode l) = Some l.
Proof.
  intros F. unfold b64_decode.
  assert (E : filter (fun c => negb (eqb c 10 || eqb c 13)) (b64_encode l) = b64_encode l).
  { pose proof (b64_chars l F) as C. induction C as [|c m H _ IH]; auto. cbn [filter].
    destruct (eqb_spec c 10); [lia|]. destruct (eqb_spec c 13); [lia|]. cbn [orb negb]. now rewrite IH. }
  rewrite E. clear E.
  assert (G : forall k l, (length l <= k)%nat -> Forall is_byte l -> b64_groups (b64_encode l) = Some l).
  2: { now apply (G (length l)). }
  clear l F. induction k as [|k IH]; intros l L F; [destruct l; [reflexivity|cbn in L; lia]|].
  assert (M : forall x, x mod 64 < 64) by (intros; apply N.mod_lt; lia).
  assert (D : forall a b c, is_byte a -> is_byte b -> is_byte c -> (a * 65536 + b * 256 + c) / 262144 < 64).
  { unfold is_byte. intros. apply N.div_lt_upper_bound; lia. }
  assert (R : forall n, n / 262144 * 262144 + (n / 4096) mod 64 * 4096 + (n / 64) mod 64 * 64 + n mod 64 = n).
  { intros n. pose proof (N.div_mod n 64) as H1. pose proof (N.div_mod (n / 64) 64) as H2. pose proof (N.div_mod (n / 4096) 64) as H3.
    rewrite N.div_div in H2, H3 by lia. change (64 * 64) with 4096 in *. change (4096 * 64) with 262144 in *. lia. }
  assert (V : b64_value 61 = None) by reflexivity.
  assert (B0 : is_byte 0) by (unfold is_byte; lia).
  destruct l as [|a [|b [|c r]]]; cbn [b64_encode]; auto.
  - inversion F as [|? ? Fa _]; subst. pose proof (D a 0 0 Fa B0 B0) as D1. rewrite N.mul_0_l, !N.add_0_r in D1.
    cbn [b64_groups]. rewrite !b64_value_char, V by auto. cbn [eqb]. change (eqb 61 61) with true. cbn [andb].
    do 2 f_equal. pose proof (R (a * 65536)) as Q.
    assert (Z1 : (a * 65536 / 64) mod 64 = 0).
    { replace (a * 65536 / 64) with (a * 16 * 64) by (replace (a * 65536) with (a * 1024 * 64) by lia; rewrite N.div_mul by lia; lia). apply N.mod_mul. lia. }
    assert (Z2 : (a * 65536) mod 64 = 0) by (replace (a * 65536) with (a * 1024 * 64) by lia; apply N.mod_mul; lia).
    rewrite Z1, Z2 in Q. replace (a * 65536 / 262144 * 262144 + (a * 65536 / 4096) mod 64 * 4096) with (a * 65536) by lia.
    now rewrite N.div_mul by lia.
  - inversion F as [|? ? Fa F']; inversion F' as [|? ? Fb _]; subst. pose proof (D a b 0 Fa Fb B0) as D1. rewrite !N.add_0_r in D1.
    cbn [b64_groups]. rewrite !b64_value_char, V by auto. change (eqb 61 61) with true. cbn [andb].
    pose proof (R (a * 65536 + b * 256)) as Q.
    assert (Z2 : (a * 65536 + b * 256) mod 64 = 0)
      by (replace (a * 65536 + b * 256) with ((a * 1024 + b * 4) * 64) by lia; apply N.mod_mul; lia).
    rewrite Z2, N.add_0_r in Q. change (eqb (@nil N) []) with true. cbv iota zeta. rewrite Q. f_equal. unfold is_byte in *.
    f_equal; [|f_equal].
    + rewrite N.div_add_l by lia. rewrite N.div_small by lia. lia.
    + replace (a * 65536 + b * 256) with ((a * 256 + b) * 256) by lia. rewrite N.div_mul by lia.
      rewrite N.add_comm, N.mod_add by lia. now apply N.mod_small.
  - inversion F as [|? ? Fa F']; inversion F' as [|? ? Fb F'']; inversion F'' as [|? ? Fc F3]; subst.
    cbn [b64_groups]. rewrite !b64_value_char by auto. cbv zeta. rewrite R. rewrite IH by (auto; cbn [length] in L; lia).
    unfold is_byte in *. f_equal. f_equal; [|f_equal; [|f_equal]].
    + replace (a * 65536 + b * 256 + c) with (a * 65536 + (b * 256 + c)) by lia. rewrite N.div_add_l by lia. rewrite N.div_small by lia. lia.
    + replace (a * 65536 + b * 256 + c) with ((a * 256 + b) * 256 + c) by lia. rewrite N.div_add_l by lia. rewrite (N.div_small c) by lia.
      rewrite N.add_0_r, N.add_comm, N.mod_add by lia. now apply N.mod_small.
    + replace (a * 65536 + b * 256 + c) with (c + (a * 256 + b) * 256) by lia. rewrite N.mod_add by lia. now apply N.mod_small.
Qed.

Example strconv_values :
  format_uint 1048576 = bs "1048576" /\ parse_uint (bs "168") = Some 168 /\ parse_uint (bs "-1") = None /\
  parse_int (bs "-12") = Some (-12)%Z /\ parse_uint (bs "18446744073709551616") = None /\
  b64_encode (bs "hello") = bs "aGVsbG8=" /\ b64_decode (bs "aGVsbG8=") = Some (bs "hello") /\ b64_decode (bs "aGVsbG8") = None.
Proof. vm_compute. repeat split. Qed.
