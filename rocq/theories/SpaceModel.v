(** Model of saving a database on a full disk, /repo/inidb/inidb.go. *)
From Verif Require Import Base IniModel.

(** inidb.go:108-119 in [Save]: the calls of fmt.Fprintf, one after the other: the first line, and for
    each table its header unless it is the unnamed one, a line for each record, and a
    blank line.  [order] is the order in which Go happened to iterate over the maps. *)
Definition table_writes (tv : bytes * section) : list bytes :=
  (match fst tv with [] => [] | tk => [[LBR] ++ tk ++ [RBR; LF]] end)
  ++ map render_record (snd tv) ++ [[LF]].
Definition save_writes (order : tables) : list bytes :=
  (auto ++ [LF]) :: concat (map table_writes order).

(** What a disk with room for [room] more bytes takes of the writes: a write that does not fit is
    cut, and after that nothing is written.  The number of bytes and the error that
    fmt.Fprintf returns are not looked at (inidb.go:109-119), so the calls go on. *)
Fixpoint takes (room : nat) (ws : list bytes) : list bytes :=
  match ws with
  | [] => []
  | w :: ws' => firstn room w :: takes (room - length w) ws'
  end.

(** inidb.go:96-143 [Save] of a database with unsaved changes, on a disk with [room] bytes left; the flag
    is whether Save returned nil.  Directory entries take no room, and f.Close
    (inidb.go:120), whose error is not looked at either, loses nothing more. *)
Definition save_on (room : nat) (d : dir) (base tmp stamp : bytes) (created : bool) (depth : Z) (order : tables) : list fs_eff * bool :=
  save_dir d base tmp stamp created depth (takes room (save_writes order)).
