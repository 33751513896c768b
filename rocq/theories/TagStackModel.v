(** Model of /repo/tagstack/tagstack.go. *)
From Verif Require Import Base.

(** tagstack.go:19-22 *)
Inductive ts_err := ErrOverflow | ErrUnderflow.

(** Go conversion uint32(i) of an int (tagstack.go:43,56). *)
Definition u32 (n : N) : N := (n mod 2 ^ 32)%N.

(** * Non-blocking flavour *)

(** tagstack.go:25-33, the fields used when [blocking] is false.  The mutex is
    not represented: each method holds it for its whole body (lines 71-72 and
    91-92), so calls are atomic steps. *)
Record tagstack := { ts_at : nat; ts_stack : list N }.

(** tagstack.go:50-61 [New].  A negative depth panics in make. *)
Definition ts_new (depth : Z) : res ts_err tagstack :=
  if (depth <? 0)%Z then Panic
  else Ok {| ts_at := Z.to_nat depth;
             ts_stack := map (fun k => u32 (N.of_nat k)) (seq 0 (Z.to_nat depth)) |}.

(** tagstack.go:65-81 [Push], non-blocking part. *)
Definition ts_push (s : tagstack) (x : N) : tagstack * option ts_err :=
  if ts_at s <? length (ts_stack s)
  then ({| ts_at := S (ts_at s); ts_stack := upd (ts_stack s) (ts_at s) x |}, None)
  else (s, Some ErrOverflow).

(** tagstack.go:85-100 [Pop], non-blocking part.  Go returns the pair
    (0, ErrUnderflow) on failure.  [nth] with a default stands for the slice
    index s.stack[s.at]; the theorem [ts_pop_in_range] shows the default is
    never used. *)
Definition ts_pop (s : tagstack) : tagstack * (N + ts_err) :=
  match ts_at s with
  | O => (s, inr ErrUnderflow)
  | S a => ({| ts_at := a; ts_stack := ts_stack s |}, inl (nth a (ts_stack s) 0%N))
  end.

(** tagstack.go:103-109 [Depth], non-blocking part. *)
Definition ts_depth (s : tagstack) : nat := length (ts_stack s).

(** Calls and their results, for histories. *)
Inductive ts_op := OPush (x : N) | OPop.
Inductive ts_out := RPush (e : option ts_err) | RPop (r : N + ts_err).

Definition ts_step (s : tagstack) (o : ts_op) : tagstack * ts_out :=
  match o with
  | OPush x => let (s', e) := ts_push s x in (s', RPush e)
  | OPop => let (s', r) := ts_pop s in (s', RPop r)
  end.

Fixpoint ts_run (s : tagstack) (ops : list ts_op) : tagstack * list ts_out :=
  match ops with
  | [] => (s, [])
  | o :: ops' =>
      let (s1, r) := ts_step s o in
      let (s2, rs) := ts_run s1 ops' in (s2, r :: rs)
  end.

(** * Blocking flavour *)

(** tagstack.go:25-33 with [blocking] true: a buffered Go channel, i.e. a FIFO
    buffer with a capacity. *)
Record tagchan := { tc_cap : nat; tc_buf : list N }.

(** tagstack.go:36-47 [NewBlocking]; make(chan, negative) panics. *)
Definition tc_new (depth : Z) : res ts_err tagchan :=
  if (depth <? 0)%Z then Panic
  else Ok {| tc_cap := Z.to_nat depth;
             tc_buf := map (fun k => u32 (N.of_nat k)) (seq 0 (Z.to_nat depth)) |}.

(** tagstack.go:66-69; [None] means that the caller has to wait. *)
Definition tc_push (c : tagchan) (x : N) : option tagchan :=
  if length (tc_buf c) <? tc_cap c
  then Some {| tc_cap := tc_cap c; tc_buf := tc_buf c ++ [x] |}
  else None.

(** tagstack.go:86-89 *)
Definition tc_pop (c : tagchan) : option (tagchan * N) :=
  match tc_buf c with
  | [] => None
  | x :: r => Some ({| tc_cap := tc_cap c; tc_buf := r |}, x)
  end.

(** tagstack.go:104-106: for a blocking stack Depth is the number of stored
    tags, not the capacity. *)
Definition tc_depth (c : tagchan) : nat := length (tc_buf c).

(** A completed operation on the channel, as observed: [EPushed x] is a Push
    that returned, [EPopped x] a Pop that returned [x]. *)
Inductive tc_ev := EPushed (x : N) | EPopped (x : N).

(** One completed operation; [None] when the operation cannot complete in this
    state or would have returned another value. *)
Definition tc_step (c : tagchan) (e : tc_ev) : option tagchan :=
  match e with
  | EPushed x => tc_push c x
  | EPopped x => match tc_pop c with
                 | Some (c', y) => if N.eqb x y then Some c' else None
                 | None => None
                 end
  end.

Fixpoint tc_run (c : tagchan) (es : list tc_ev) : option tagchan :=
  match es with
  | [] => Some c
  | e :: es' => match tc_step c e with Some c' => tc_run c' es' | None => None end
  end.

(** * Holders

    Callers (goroutines) are numbered.  [held] records which caller holds which
    tag.  A caller may push a tag only if it holds it; this is the discipline
    the package comment (tagstack.go:5-9) leaves to the caller. *)
Inductive h_ev := HPop (c : N) | HPush (c : N) (t : N).

Fixpoint remove_one (p : N * N) (l : list (N * N)) : list (N * N) :=
  match l with
  | [] => []
  | q :: l' => if eqb p q then l' else q :: remove_one p l'
  end.

(** A step of the non-blocking stack with holders.  [None] is a violation of
    the discipline (pushing a tag one does not hold).  The error returned to
    the caller, if any, is the second component. *)
Definition h_step (st : tagstack * list (N * N)) (e : h_ev)
  : option (tagstack * list (N * N) * option ts_err) :=
  let (s, held) := st in
  match e with
  | HPop c =>
      match ts_pop s with
      | (s', inl t) => Some (s', (c, t) :: held, None)
      | (s', inr er) => Some (s', held, Some er)
      end
  | HPush c t =>
      if mem (c, t) held then
        match ts_push s t with
        | (s', None) => Some (s', remove_one (c, t) held, None)
        | (s', Some er) => Some (s', held, Some er)
        end
      else None
  end.

Fixpoint h_run (st : tagstack * list (N * N)) (es : list h_ev)
  : option (tagstack * list (N * N) * list (option ts_err)) :=
  match es with
  | [] => Some (st, [])
  | e :: es' =>
      match h_step st e with
      | Some (st', er) =>
          match h_run st' es' with
          | Some (st'', ers) => Some (st'', er :: ers)
          | None => None
          end
      | None => None
      end
  end.

(** The same for the blocking flavour; an operation that has to wait does not
    take a step, so [None] is either a discipline violation or waiting. *)
Inductive hb_result := HBWait | HBViolation | HBDone (c : tagchan) (held : list (N * N)).

Definition hb_step (st : tagchan * list (N * N)) (e : h_ev) : hb_result :=
  let (c, held) := st in
  match e with
  | HPop g => match tc_pop c with
              | Some (c', t) => HBDone c' ((g, t) :: held)
              | None => HBWait
              end
  | HPush g t => if mem (g, t) held then
                   match tc_push c t with
                   | Some c' => HBDone c' (remove_one (g, t) held)
                   | None => HBWait
                   end
                 else HBViolation
  end.

Fixpoint hb_run (st : tagchan * list (N * N)) (es : list h_ev)
  : option (tagchan * list (N * N)) :=
  match es with
  | [] => Some st
  | e :: es' => match hb_step st e with
                | HBDone c h => hb_run (c, h) es'
                | _ => None
                end
  end.
