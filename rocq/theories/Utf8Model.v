(** UTF-8 as read by Go's range over a string (unicode/utf8 DecodeRuneInString):
    the runes of a string with their positions.  Invalid bytes give the rune U+FFFD
    and a step of one byte. *)
From Verif Require Import Base.
Local Open Scope N_scope.

Definition rune_error : N := 65533.
Definition in_range (lo hi b : N) : bool := (lo <=? b) && (b <=? hi).
Definition cont (b : N) : bool := in_range 128 191 b.

(** The first rune of a non-empty string and its width. *)
Definition decode_rune (l : bytes) : N * nat :=
  match l with
  | [] => (rune_error, 0%nat)
  | a :: r =>
      if a <? 128 then (a, 1%nat)
      else if in_range 194 223 a then
        match r with
        | b :: _ => if cont b then ((a - 192) * 64 + (b - 128), 2%nat) else (rune_error, 1%nat)
        | _ => (rune_error, 1%nat)
        end
      else if in_range 224 239 a then
        match r with
        | b :: c :: _ =>
            let lo := if a =? 224 then 160 else 128 in
            let hi := if a =? 237 then 159 else 191 in
            if in_range lo hi b && cont c
            then ((a - 224) * 4096 + (b - 128) * 64 + (c - 128), 3%nat) else (rune_error, 1%nat)
        | _ => (rune_error, 1%nat)
        end
      else if in_range 240 244 a then
        match r with
        | b :: c :: d :: _ =>
            let lo := if a =? 240 then 144 else 128 in
            let hi := if a =? 244 then 143 else 191 in
            if in_range lo hi b && cont c && cont d
            then ((a - 240) * 262144 + (b - 128) * 4096 + (c - 128) * 64 + (d - 128), 4%nat)
            else (rune_error, 1%nat)
        | _ => (rune_error, 1%nat)
        end
      else (rune_error, 1%nat)
  end.

(** The runes of a string (range over a string); the fuel is its length. *)
Fixpoint runes_fuel (fuel : nat) (l : bytes) : list N :=
  match fuel, l with
  | S fuel', _ :: _ => let '(r, w) := decode_rune l in r :: runes_fuel fuel' (skipn w l)
  | _, _ => []
  end.
Definition runes (l : bytes) : list N := runes_fuel (length l) l.

(** utf8.EncodeRune (bytes.Buffer.WriteRune): runes out of range and surrogates are
    written as U+FFFD. *)
Definition encode_rune (r : N) : bytes :=
  if r <? 128 then [r]
  else if r <? 2048 then [192 + r / 64; 128 + r mod 64]
  else if (1114111 <? r) || in_range 55296 57343 r then [239; 191; 189]
  else if r <? 65536 then [224 + r / 4096; 128 + (r / 64) mod 64; 128 + r mod 64]
  else [240 + r / 262144; 128 + (r / 4096) mod 64; 128 + (r / 64) mod 64; 128 + r mod 64].

(** What skipping a rune skips: runes below 128 are single bytes, all others consist
    of bytes above 127. *)
Lemma decode_rune_width a r : (1 <= snd (decode_rune (a :: r)) <= length (a :: r))%nat.
Proof.
  unfold decode_rune. cbn [length].
  repeat match goal with
  | |- context [if ?x then _ else _] => destruct x
  | |- context [match ?x with [] => _ | _ :: _ => _ end] => destruct x; cbn [length]
  end; cbn [snd]; lia.
Qed.

Lemma decode_ascii a r : a < 128 -> decode_rune (a :: r) = (a, 1%nat).
Proof. intros H. unfold decode_rune. destruct (N.ltb_spec a 128); [auto|lia]. Qed.

Lemma decode_high a r : 128 <= a -> 128 <= fst (decode_rune (a :: r)) /\
  Forall (fun b => 128 <= b) (firstn (snd (decode_rune (a :: r))) (a :: r)).
Proof.
  intros H. unfold decode_rune, rune_error, cont, in_range. destruct (N.ltb_spec a 128); [lia|].
  repeat match goal with
  | |- context [match ?x with [] => _ | _ :: _ => _ end] => destruct x
  | |- context [if ?x then _ else _] => destruct x eqn:?
  end; cbn [fst snd firstn];
  repeat match goal with H : _ && _ = true |- _ => apply andb_prop in H as [? ?] end;
  repeat match goal with H : (_ <=? _) = true |- _ => apply N.leb_le in H
                       | H : (_ =? _) = true |- _ => apply N.eqb_eq in H
                       | H : (_ =? _) = false |- _ => apply N.eqb_neq in H end;
  repeat match goal with H : context [if ?x then _ else _] |- _ => destruct x eqn:? end;
  repeat match goal with H : (_ =? _) = true |- _ => apply N.eqb_eq in H
                       | H : (_ =? _) = false |- _ => apply N.eqb_neq in H end;
  (split; [try lia|repeat (apply Forall_cons; [lia|]); apply Forall_nil]).
Qed.

(** The runes of a string that satisfy a predicate true only below 128 are the bytes
    that satisfy it. *)
Lemma runes_filter f l : (forall r, f r = true -> r < 128) -> filter f (runes l) = filter f l.
Proof.
  intros F. unfold runes. assert (G : forall fuel l, (length l <= fuel)%nat -> filter f (runes_fuel fuel l) = filter f l).
  { clear l. induction fuel as [|fuel IH]; intros l L; [destruct l; [auto|cbn in L; lia]|].
    destruct l as [|a l]; auto. cbn [runes_fuel]. destruct (decode_rune (a :: l)) as [r w] eqn:D.
    pose proof (decode_rune_width a l) as W. rewrite D in W. cbn [snd] in W.
    assert (S : filter f (a :: l) = filter f (firstn w (a :: l)) ++ filter f (skipn w (a :: l))).
    { rewrite <- filter_app, firstn_skipn. reflexivity. }
    rewrite S. change (filter f (r :: runes_fuel fuel (skipn w (a :: l)))) with
      ((if f r then [r] else []) ++ filter f (runes_fuel fuel (skipn w (a :: l)))) || idtac.
    cbn [filter]. rewrite IH by (rewrite skipn_length; cbn [length] in *; lia).
    destruct (N.lt_ge_cases a 128) as [A|A].
    - rewrite decode_ascii in D by auto. injection D as <- <-. cbn [firstn filter]. destruct (f a); auto.
    - destruct (decode_high a l A) as [H1 H2]. rewrite D in H1, H2. cbn [fst snd] in H1, H2.
      assert (Z : filter f (firstn w (a :: l)) = []).
      { clear - F H2. induction H2 as [|x m Hx _ IHm]; auto. cbn [filter]. destruct (f x) eqn:X; auto.
        apply F in X. lia. }
      rewrite Z. destruct (f r) eqn:X; auto. apply F in X. lia. }
  apply G. auto.
Qed.
