(** Model of leaving the program with /quit: zkclient/mainwindow.go:660-677, with
    msg.go:127-133 and 197-205 [queueDepth], on top of the outgoing queue of
    SchedModel.v. *)
From Verif Require Import Base SchedModel.
Local Open Scope nat_scope.

Section Quit.
Variable msg : Type.

(** What msg.go:197-205 [queueDepth] returns: the error, or the lengths. *)
Inductive reply := NoAnswer | Depth (hi lo : nat).

(** The other goroutines go on while the sender answers; the sender stays where it
    is. *)
Inductive meanwhile : sched msg -> list (event msg) -> sched msg -> Prop :=
| M_nil s : meanwhile s [] s
| M_step s tr s1 e s2 : meanwhile s tr s1 -> sstep msg s1 e s2 -> s_sender msg s2 = SSelect msg -> meanwhile s (tr ++ [e]) s2.

(** Asking for the depth (msg.go:198-202): z.depth is not buffered and the send does not wait,
    so it works only if the sender waits in its select.  It may fail there as well: the sender
    has come to the select and not gone to sleep yet.  The answer is taken
    under the mutex some time later (msg.go:128-133). *)
Inductive asks : sched msg -> reply -> list (event msg) -> sched msg -> Prop :=
| A_default s : asks s NoAnswer [] s
| A_answer s tr s' : s_sender msg s = SSelect msg -> meanwhile s tr s' ->
    asks s (Depth (length (s_queue msg s' Hi)) (length (s_queue msg s' Lo))) tr s'.

(** mainwindow.go:660-677 and zkclient.go:2279-2280: whether the program ends.  [words] is
    args, the command split at spaces. *)
Definition quits (words : list bytes) (r : reply) : bool :=
  match words with
  | [_; w] => if eqb w (bs "force") then true
              else match r with NoAnswer => true | Depth h l => Nat.eqb h 0 && Nat.eqb l 0 end
  | _ => match r with NoAnswer => true | Depth h l => Nat.eqb h 0 && Nat.eqb l 0 end
  end.
End Quit.
