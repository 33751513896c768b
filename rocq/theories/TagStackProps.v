(** Properties C01 and C02. *)
From Verif Require Import Base TagStackModel TagStackProofs.

(** C01, non-blocking: the results of every call sequence are those of a
    bounded LIFO stack holding d-1 (top), ..., 0. *)
Theorem C01_lifo : forall (d : nat) (ops : list ts_op),
  (N.of_nat d <= 2 ^ 32)%N ->
  exists s, ts_new (Z.of_nat d) = Ok s /\
    snd (ts_run s ops) = snd (spec_run d (initial_tags d) ops).
Proof. exact ts_lifo. Qed.
Print Assumptions C01_lifo.

Example C01_lifo_case :
  match ts_new 3 with
  | Ok s => snd (ts_run s [OPush 9; OPop; OPop; OPush 7; OPop; OPop; OPop])%N
  | _ => []
  end = [RPush (Some ErrOverflow); RPop (inl 2); RPop (inl 1); RPush None;
         RPop (inl 7); RPop (inl 0); RPop (inr ErrUnderflow)]%N.
Proof. reflexivity. Qed.

(** C01: no call ever indexes outside the array; Depth is constant. *)
Theorem C01_in_range : forall (d : nat) (ops : list ts_op) s,
  (N.of_nat d <= 2 ^ 32)%N -> ts_new (Z.of_nat d) = Ok s ->
  ts_at (fst (ts_run s ops)) <= length (ts_stack (fst (ts_run s ops))) /\
  ts_depth (fst (ts_run s ops)) = d.
Proof. exact ts_pop_in_range. Qed.
Print Assumptions C01_in_range.

(** C01, blocking: the tags that came out are, in order, a prefix of the initial
    tags 0..d-1 followed by the tags that went in; Push waits exactly when d tags
    are stored and Pop exactly when none is. *)
Theorem C01_fifo : forall (d : nat) c es c',
  (N.of_nat d <= 2 ^ 32)%N -> tc_new (Z.of_nat d) = Ok c -> tc_run c es = Some c' ->
  exists rest,
    fifo_tags d ++ pushed es = popped es ++ rest /\ length rest <= d /\
    (forall x, tc_push c' x = None <-> length rest = d) /\
    (tc_pop c' = None <-> rest = []) /\
    (forall c'' y, tc_pop c' = Some (c'', y) -> hd_error rest = Some y) /\
    tc_depth c' = length rest.
Proof. exact tc_fifo. Qed.
Print Assumptions C01_fifo.

Example C01_fifo_case :
  match tc_new 2 with
  | Ok c => tc_run c [EPopped 0; EPushed 5; EPopped 1; EPopped 5]%N
            = Some {| tc_cap := 2; tc_buf := [] |}
  | _ => False
  end.
Proof. reflexivity. Qed.

(** C02, non-blocking. *)
Theorem C02_unique : forall (d : nat) s es s' held ers,
  (N.of_nat d <= 2 ^ 32)%N -> ts_new (Z.of_nat d) = Ok s ->
  h_run (s, []) es = Some (s', held, ers) ->
  NoDup (map snd held) /\
  (forall t, In t (map snd held) -> (t < N.of_nat d)%N) /\
  length held <= d /\
  (exists free, Permutation (map snd held ++ free) (all_tags d) /\
     snd (ts_run s' (repeat OPop (S (length free)))) =
       map (fun t => RPop (inl t)) free ++ [RPop (inr ErrUnderflow)]) /\
  (forall c t, In (c, t) held -> exists st'', h_step (s', held) (HPush c t) = Some (st'', None)).
Proof. exact h_unique. Qed.
Print Assumptions C02_unique.

Example C02_unique_case :
  match ts_new 3 with
  | Ok s => match h_run (s, []) [HPop 1; HPop 2; HPush 1 2; HPop 3; HPop 1; HPop 1]%N with
            | Some (_, held, ers) =>
                held = [(1, 0); (3, 2); (2, 1)]%N /\
                ers = [None; None; None; None; None; Some ErrUnderflow]
            | None => False
            end
  | _ => False
  end.
Proof. split; reflexivity. Qed.

(** C02, blocking. *)
Theorem C02_unique_blocking : forall (d : nat) c es c' held,
  (N.of_nat d <= 2 ^ 32)%N -> tc_new (Z.of_nat d) = Ok c ->
  hb_run (c, []) es = Some (c', held) ->
  NoDup (map snd held) /\
  (forall t, In t (map snd held) -> (t < N.of_nat d)%N) /\
  (forall g t, In (g, t) held ->
     exists c'', hb_step (c', held) (HPush g t) = HBDone c'' (remove_one (g, t) held)) /\
  (forall g, hb_step (c', held) (HPop g) = HBWait <-> length held = d).
Proof. exact hb_unique. Qed.
Print Assumptions C02_unique_blocking.

Example C02_blocking_case :
  match tc_new 2 with
  | Ok c => hb_run (c, []) [HPop 1; HPop 2; HPush 1 0; HPop 3]%N
            = Some ({| tc_cap := 2; tc_buf := [] |}, [(3, 0); (2, 1)]%N)
  | _ => False
  end.
Proof. reflexivity. Qed.
