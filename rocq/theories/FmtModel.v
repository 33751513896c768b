(** Model of fmt.Sprintf as far as it is needed for the line of
    /repo/zkclient/push.go that has a received name in its format. *)
From Verif Require Import Base Utf8Model StrconvModel XdrModel RpcModel AddrModel GroupModel WhoModel.
Local Open Scope N_scope.

(** ** fmt.Sprintf, a library *)

(** The package fmt of Go 1.13 (go.mod says "go 1.13"), doPrintf in print.go, for arguments
    that are strings or errors.  Modelled are text, [%%], and the verb [v] with an optional width of at
    most 1000000 (parsenum takes at least that) and an optional index of an argument that
    is there.  For the rest (flags, precisions, [*], other verbs, arguments left over) the result is
    [other], of which nothing is assumed. *)
Fixpoint span (p : N -> bool) (s : bytes) : bytes * bytes :=
  match s with
  | c :: r => if p c then let (a, b) := span p r in (c :: a, b) else ([], s)
  | [] => ([], [])
  end.

(** parsenum, for a number that does not begin with 0, which would be a flag. *)
Definition width (s : bytes) : option (N * bytes) :=
  match s with
  | 48 :: _ => None
  | _ => let (ds, r) := span is_digit s in if digits_value ds <=? 1000000 then Some (digits_value ds, r) else None
  end.
(** argNumber with parseArgNumber; arguments are counted from 1. *)
Definition index (nargs : nat) (s : bytes) : option (option nat * bytes) :=
  match s with
  | 91 :: r => let (ds, r') := span is_digit r in
               match r' with
               | 93 :: r'' => if (1 <=? digits_value ds) && (digits_value ds <=? N.of_nat nargs)
                              then Some (Some (N.to_nat (digits_value ds) - 1)%nat, r'') else None
               | _ => None
               end
  | _ => Some (None, s)
  end.
Definition directive (nargs : nat) (s : bytes) : option (N * option nat * bytes) :=
  match width s with
  | None => None
  | Some (w, r) => match index nargs r with
                   | Some (k, 118 :: r') => Some (w, k, r')
                   | _ => None
                   end
  end.

(** padString in format.go: the width counts runes; blanks on the left. *)
Definition pad (w : N) (s : bytes) : bytes := repeat 32 (N.to_nat w - length (runes s)) ++ s.

(** doPrintf from the argument number [arg] on; [re]: an index was used.  The fuel is the length
    of the format. *)
Fixpoint doprintf (other : list bytes -> nat -> bytes -> bytes) (args : list bytes) (fuel : nat) (arg : nat) (re : bool) (s : bytes) : bytes :=
  match fuel, s with
  | _, [] => if negb re && (arg <? length args)%nat then other args arg [] else []
  | O, _ => []
  | S f, 37 :: 37 :: r => 37 :: doprintf other args f arg re r
  | S f, 37 :: r =>
      match directive (length args) r with
      | None => other args arg s
      | Some (w, k, r') =>
          let a := match k with Some i => i | None => arg end in
          let re' := match k with Some _ => true | None => re end in
          match nth_error args a with
          | Some x => pad w x ++ doprintf other args f (S a) re' r'
          | None => bs "%!v(MISSING)" ++ doprintf other args f a re' r'
          end
      end
  | S f, c :: r => c :: doprintf other args f arg re r
  end.
Definition sprintf (other : list bytes -> nat -> bytes -> bytes) (format : bytes) (args : list bytes) : bytes :=
  doprintf other args (length format) 0 false format.

(** ** push.go *)

(** zkclient.go:1891-1916 [_updateGroupList] with errNotAdmin of zkclient.go:1880: the text of the
    error if the group is not stored; [save] is that of _gcSaveDisk, if there is one. *)
Definition update_error (c : gclient) (from : bytes) (gl : GroupList) (save : option bytes) : option bytes :=
  match mget (c_groups c) (GroupList_Name gl) with
  | None => Some (bs "group not found: " ++ GroupList_Name gl)
  | Some g => match GroupList_Members g with
              | [] => Some (bs "partial group")
              | a :: _ => if eqb a from then save else Some (bs "not group administrator")
              end
  end.

(** push.go:1183-1188 in handleGroupList and 1209-1214 in handleGroupUpdate, with
    zkclient.go:113-115 [PrintfT] and 151-152 in [printf]: the line for the console, without the time,
    if there is one.  The name of the group and the colours belong to the format; the only
    argument is the error. *)
Definition failed_format (P : palette) (name : bytes) : bytes :=
  bs "could not update group chat list: %v %v" ++ p_gc P ++ name ++ p_reset P.
Definition failed_line (other : list bytes -> nat -> bytes -> bytes) (P : palette) (c : gclient) (from : bytes) (gl : GroupList)
    (save : option bytes) : option bytes :=
  match update_error c from gl save with
  | Some err => Some (sprintf other (failed_format P (GroupList_Name gl)) [err])
  | None => None
  end.
