(** Models of small parts of the client's user interface: tab completion, command
    history, version strings, group names. *)
From Verif Require Import Base Utf8Model.
Local Open Scope N_scope.

(** * Tab completion, /repo/zkclient/completion.go *)

(** completion.go:16-21, without the mode, which Next does not use. *)
Record completion := mkComp { c_all : list bytes; c_at : nat; c_prev : Z }.

(** completion.go:65-75, 114-118: a new context. *)
Definition new_comp (all : list bytes) : completion := mkComp all 0 (-1).

(** strings.HasPrefix. *)
Fixpoint has_prefix (v s : bytes) {struct s} : bool :=
  match s, v with
  | [], _ => true
  | x :: s', y :: v' => eqb y x && has_prefix v' s'
  | _ :: _, [] => false
  end.

(** completion.go:49-56: the first candidate with prefix [s], from index [i] on. *)
Fixpoint first_match (i : nat) (l : list bytes) (s : bytes) : option (nat * bytes) :=
  match l with
  | [] => None
  | v :: r => if has_prefix v s then Some (i, v) else first_match (S i) r s
  end.

(** completion.go:28-61 Next; indexing outside the candidates panics. *)
Definition next (c : completion) (s : bytes) : res unit (completion * bytes) :=
  let all := c_all c in
  let look c :=
    match first_match 0 all s with
    | Some (i, v) => Ok (mkComp all i (Z.of_nat i), v)
    | None => Ok (mkComp all 0 (-1), s)
    end in
  match all with
  | [] => Ok (mkComp all 0 (c_prev c), s)
  | first :: _ =>
      match s with
      | [] => Ok (mkComp all 0 0, first)
      | _ =>
          if (Z.of_nat (c_at c) =? c_prev c)%Z then
            match nth_error all (c_at c) with
            | None => Panic
            | Some v =>
                if eqb v s then
                  if (c_at c + 1 <? length all)%nat then
                    match nth_error all (c_at c + 1) with
                    | Some w => Ok (mkComp all (c_at c + 1) (Z.of_nat (c_at c + 1)), w)
                    | None => Panic
                    end
                  else Ok (mkComp all 0 0, first)
                else look c
            end
          else look c
      end
  end.

(** Pressing tab repeatedly: each answer is the next input. *)
Fixpoint tabs (n : nat) (c : completion) (s : bytes) : res unit (list bytes) :=
  match n with
  | O => Ok []
  | S n' => match next c s with
            | Ok (c', s') => match tabs n' c' s' with Ok l => Ok (s' :: l) | Err e => Err e | Panic => Panic end
            | Err e => Err e
            | Panic => Panic
            end
  end.

(** * Command history, /repo/zkclient/mainwindow.go *)

Record history := mkHist { h_lines : list bytes; h_at : Z }.
Inductive key := Enter (cmd : bytes) | Up | Down.

(** mainwindow.go:329-352 appendHistory and 223-240: the state after a key, and the
    text put into the command line if it changes.  Pressing enter clears the line
    elsewhere. *)
Definition press (h : history) (k : key) : res unit (history * option bytes) :=
  let n := Z.of_nat (length (h_lines h)) in
  let show (at_ : Z) :=
    if (at_ <? 0)%Z then Panic
    else match nth_error (h_lines h) (Z.to_nat at_) with
         | Some s => Ok (mkHist (h_lines h) at_, Some s)
         | None => Panic
         end in
  match k with
  | Enter [] => Ok (h, None)
  | Enter cmd => Ok (mkHist (h_lines h ++ [cmd]) (n + 1), None)
  | Up => if (h_at h <=? 0)%Z then Ok (h, None) else show (h_at h - 1)%Z
  | Down => if (n - 1 <=? h_at h)%Z then Ok (mkHist (h_lines h) n, Some []) else show (h_at h + 1)%Z
  end.

Fixpoint presses (h : history) (ks : list key) : res unit (history * list (option bytes)) :=
  match ks with
  | [] => Ok (h, [])
  | k :: r => match press h k with
              | Ok (h', o) => match presses h' r with Ok (h2, l) => Ok (h2, o :: l) | Err e => Err e | Panic => Panic end
              | Err e => Err e
              | Panic => Panic
              end
  end.

(** mainwindow.go:351: what appendHistory adds to the file (nothing for the empty
    command). *)
Definition append_file (file : bytes) (cmd : bytes) : bytes :=
  match cmd with [] => file | _ => file ++ cmd ++ [10] end.

(** strings.TrimRight(line, "\r\n"). *)
Fixpoint drop_crlf (l : bytes) : bytes :=
  match l with
  | x :: r => if eqb x 10 || eqb x 13 then drop_crlf r else l
  | [] => []
  end.
Definition trim_right (l : bytes) : bytes := rev (drop_crlf (rev l)).

(** mainwindow.go:300-327 readHistory: lines ended by "\n"; the rest of the file
    without one is dropped.  [acc] is the line read so far, reversed. *)
Fixpoint read_lines (acc : bytes) (file : bytes) : list bytes :=
  match file with
  | [] => []
  | x :: r => if eqb x 10 then trim_right (rev (x :: acc)) :: read_lines [] r
              else read_lines (x :: acc) r
  end.
Definition read_history (file : bytes) : history :=
  let l := read_lines [] file in mkHist l (Z.of_nat (length l)).

(** * Version strings, /repo/zkutil/zkutil.go:15-74 *)

Definition semantic_alphabet : bytes := bs "0123456789ABCDEFGHIJKLMNOPQRSTUVWXYZabcdefghijklmnopqrstuvwxyz-".

(** zkutil.go:66-74 normalizeVerString. *)
Definition normalize (s : bytes) : bytes :=
  flat_map encode_rune (filter (fun r => mem r semantic_alphabet) (runes s)).

(** zkutil.go:37-60 Version, with the build string an argument; the pre-release
    string is a constant. *)
Definition version_of (pre build : bytes) : bytes :=
  let v := bs "0.4.1" in
  let v := match normalize pre with [] => v | p => v ++ bs "-" ++ p end in
  match normalize build with [] => v | b => v ++ bs "+" ++ b end.
Definition version (build : bytes) : bytes := version_of [] build.

(** * Group names, /repo/zkclient/groupchat.go *)

(** groupchat.go:24-27. *)
Definition valid_letters : bytes :=
  bs "abcdefghijklmnopqrstuvwyz" ++ bs "ABCDEFGHIJKLMNOPQRSTUVWYZ" ++ bs "1234567890" ++ bs "_-@.".
(** groupchat.go:29-45 validName. *)
Definition valid_name (name : bytes) : bool := forallb (fun c => mem c valid_letters) name.

(** path.Join(dir, name) on path components, for a cleaned absolute [dir]
    (innermost component first): empty and "." components are dropped, ".." removes
    one.  *)
Fixpoint split_slash (acc : bytes) (p : bytes) : list bytes :=
  match p with
  | [] => [rev acc]
  | x :: r => if eqb x 47 then rev acc :: split_slash [] r else split_slash (x :: acc) r
  end.
Definition walk (dir : list bytes) (c : bytes) : list bytes :=
  if eqb c [] || eqb c (bs ".") then dir
  else if eqb c (bs "..") then tl dir
  else c :: dir.
Definition join (dir : list bytes) (name : bytes) : list bytes := fold_left walk (split_slash [] name) dir.
