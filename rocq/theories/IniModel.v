(** Model of /repo/inidb/inidb.go together with the parser of the go-ini library
    it loads files with. *)
From Verif Require Import Base.

(** * In-memory database *)

(** inidb.go:41, ini.File = map[string]map[string]string.  Go maps are
    association lists with distinct keys; the order of the list is not
    observable here (it is an explicit input of [render]). *)
Notation section := (list (bytes * bytes)).
Notation tables := (list (bytes * section)).

(** inidb.go:29-32 *)
Inductive ini_err := ErrNotFound.

(** inidb.go:35-42.  [filename] and [depth] appear as parameters of the disk
    operations below.  The mutex is not represented: every method holds it for
    its whole body, so calls are atomic. *)
Record inidb := { db_tables : tables; db_dirty : bool; db_created : bool }.

(** go-ini File.Section: the section, created if absent (inidb.go:69,229). *)
Definition ensure (t : tables) (name : bytes) : tables :=
  match mget t name with Some _ => t | None => mset t name [] end.

(** inidb.go:180-190 [Get]; ini.File.Get is a lookup in both maps. *)
Definition ini_get (d : inidb) (table key : bytes) : res ini_err bytes :=
  match mget (db_tables d) table with
  | Some s => match mget s key with Some v => Ok v | None => Err ErrNotFound end
  | None => Err ErrNotFound
  end.

(** inidb.go:194-206 [Set] *)
Definition ini_set (d : inidb) (table key value : bytes) : inidb * option ini_err :=
  match mget (db_tables d) table with
  | None => (d, Some ErrNotFound)
  | Some s => ({| db_tables := mset (db_tables d) table (mset s key value);
                  db_dirty := true; db_created := db_created d |}, None)
  end.

(** inidb.go:209-222 [Del]: deleting an absent key of an existing table is not
    an error. *)
Definition ini_del (d : inidb) (table key : bytes) : inidb * option ini_err :=
  match mget (db_tables d) table with
  | None => (d, Some ErrNotFound)
  | Some s => ({| db_tables := mset (db_tables d) table (mdel s key);
                  db_dirty := true; db_created := db_created d |}, None)
  end.

(** inidb.go:225-230 [NewTable]: does not set dirty. *)
Definition ini_new_table (d : inidb) (table : bytes) : inidb :=
  {| db_tables := ensure (db_tables d) table;
     db_dirty := db_dirty d; db_created := db_created d |}.

(** inidb.go:233-246 [DelTable] *)
Definition ini_del_table (d : inidb) (table : bytes) : inidb * option ini_err :=
  match mget (db_tables d) table with
  | None => (d, Some ErrNotFound)
  | Some _ => ({| db_tables := mdel (db_tables d) table;
                  db_dirty := true; db_created := db_created d |}, None)
  end.

(** inidb.go:249-259 [Records]; ranging over a missing table yields nothing. *)
Definition ini_records (d : inidb) (table : bytes) : section :=
  match mget (db_tables d) table with Some s => s | None => [] end.

(** inidb.go:262-273 [Tables] *)
Definition ini_tables (d : inidb) : list bytes := mkeys (db_tables d).

(** Calls of the in-memory interface and their results. *)
Inductive ini_op :=
| ISet (t k v : bytes) | IDel (t k : bytes) | INewTable (t : bytes)
| IDelTable (t : bytes) | IGet (t k : bytes) | IRecords (t : bytes) | ITables.
Inductive ini_out :=
| OErr (e : option ini_err)       (* Set, Del, DelTable; NewTable as OErr None *)
| OGet (r : res ini_err bytes)
| ORecords (s : section)
| OTables (l : list bytes).

Definition ini_step (d : inidb) (o : ini_op) : inidb * ini_out :=
  match o with
  | ISet t k v => let (d', e) := ini_set d t k v in (d', OErr e)
  | IDel t k => let (d', e) := ini_del d t k in (d', OErr e)
  | INewTable t => (ini_new_table d t, OErr None)
  | IDelTable t => let (d', e) := ini_del_table d t in (d', OErr e)
  | IGet t k => (d, OGet (ini_get d t k))
  | IRecords t => (d, ORecords (ini_records d t))
  | ITables => (d, OTables (ini_tables d))
  end.

(** State after a history given newest operation first. *)
Fixpoint ini_after (d : inidb) (newest_first : list ini_op) : inidb :=
  match newest_first with
  | [] => d
  | o :: h => fst (ini_step (ini_after d h) o)
  end.

(** inidb.go:69: a freshly created database has the unnamed table only. *)
Definition ini_fresh : inidb :=
  {| db_tables := [([], [])]; db_dirty := false; db_created := true |}.

(** * File format *)

Definition LF : N := 10%N.
Definition EQ : N := 61%N.    (* = *)
Definition SP : N := 32%N.
Definition LBR : N := 91%N.   (* [ *)
Definition RBR : N := 93%N.   (* ] *)
Definition SEMI : N := 59%N.  (* ; *)
Definition HASH : N := 35%N.  (* # *)

(** inidb.go:26 *)
Definition auto : bytes := bs "# This file is autogenerated, DO NOT EDIT!".

(** inidb.go:115-117, fmt.Fprintf(f, "%v = %v\n", rk, rv) *)
Definition render_record (kv : bytes * bytes) : bytes :=
  fst kv ++ [SP; EQ; SP] ++ snd kv ++ [LF].

(** inidb.go:111-119: header unless unnamed, records, blank line. *)
Definition render_table (tv : bytes * section) : bytes :=
  (match fst tv with [] => [] | tk => [LBR] ++ tk ++ [RBR; LF] end)
  ++ concat (map render_record (snd tv)) ++ [LF].

(** inidb.go:109-119.  The argument lists the tables, and in each table the
    records, in the order in which Go happened to iterate over the maps. *)
Definition render (order : tables) : bytes :=
  auto ++ [LF] ++ concat (map render_table order).

(** Strings.TrimSpace, restricted to the ASCII white space characters
    (\t \n \v \f \r and space); Unicode white space is not modelled. *)
Definition is_space (c : N) : bool :=
  ((c =? 9) || (c =? 10) || (c =? 11) || (c =? 12) || (c =? 13) || (c =? 32))%N.
Fixpoint trim_left (s : bytes) : bytes :=
  match s with
  | c :: r => if is_space c then trim_left r else s
  | [] => []
  end.
Definition trim (s : bytes) : bytes := rev (trim_left (rev (trim_left s))).

(** Lines as returned by ReadString('\n'): split after each newline; the text
    after the last newline is a line as well. *)
Fixpoint lines (s : bytes) : list bytes :=
  match s with
  | [] => [[]]
  | c :: r => if N.eqb c LF then [] :: lines r
              else match lines r with
                   | l :: ls => (c :: l) :: ls
                   | [] => [[c]]
                   end
  end.

(** Split at the first '='. *)
Fixpoint split_eq (s : bytes) : option (bytes * bytes) :=
  match s with
  | [] => None
  | c :: r => if N.eqb c EQ then Some ([], r)
              else match split_eq r with
                   | Some (a, b) => Some (c :: a, b)
                   | None => None
                   end
  end.

(** go-ini assignRegex: one or more characters other than '=', an '=', and the
    rest of the line. *)
Definition match_assign (l : bytes) : option (bytes * bytes) :=
  match split_eq l with
  | Some (c :: a, b) => Some (c :: a, b)
  | _ => None
  end.

(** go-ini sectionRegex: an opening bracket, any text, a closing bracket. *)
Definition match_section (l : bytes) : option bytes :=
  match l with
  | c :: r => if N.eqb c LBR then
                match rev r with
                | d :: m => if N.eqb d RBR then Some (rev m) else None
                | [] => None
                end
              else None
  | [] => None
  end.

(** go-ini parseFile, one line: current section and file so far.  [None] is
    ErrSyntax. *)
Definition parse_line (st : bytes * tables) (raw : bytes) : option (bytes * tables) :=
  let (cur, f) := st in
  let line := trim raw in
  match line with
  | [] => Some st
  | c :: _ =>
      if (N.eqb c SEMI || N.eqb c HASH)%bool then Some st
      else match match_assign line with
           | Some (k, v) =>
               let f' := ensure f cur in
               match mget f' cur with
               | Some s => Some (cur, mset f' cur (mset s (trim k) (trim v)))
               | None => None
               end
           | None =>
               match match_section line with
               | Some n => Some (trim n, ensure f (trim n))
               | None => None
               end
           end
  end.

Fixpoint parse_lines (st : bytes * tables) (ls : list bytes) : option (bytes * tables) :=
  match ls with
  | [] => Some st
  | l :: ls' => match parse_line st l with
                | Some st' => parse_lines st' ls'
                | None => None
                end
  end.

(** ini.LoadFile followed by inidb.go:69 (the unnamed table always exists). *)
Definition parse (content : bytes) : option tables :=
  match parse_lines ([], []) (lines content) with
  | Some (_, f) => Some (ensure f [])
  | None => None
  end.

(** * Disk operations *)

(** A directory: file name to contents. *)
Notation dir := (list (bytes * bytes)).

(** Atomic file system effects.  Renaming replaces the target, as on POSIX.
    Buffer-cache and fsync behaviour is not modelled: effects become durable in
    program order. *)
Inductive fs_eff :=
| FCreate (name : bytes)                 (* create an empty file *)
| FAppend (name content : bytes)         (* one write call *)
| FRename (src dst : bytes)
| FRemove (name : bytes).

Definition fs_apply (d : dir) (e : fs_eff) : dir :=
  match e with
  | FCreate n => mset d n []
  | FAppend n c => match mget d n with Some o => mset d n (o ++ c) | None => d end
  | FRename a b => match mget d a with
                   | Some c => mset (mdel d a) b c
                   | None => d
                   end
  | FRemove n => mdel d n
  end.

Definition fs_run (d : dir) (es : list fs_eff) : dir := fold_left fs_apply es d.

(** Byte-wise lexicographic order, the order of ioutil.ReadDir. *)
Fixpoint lex_leb (a b : bytes) : bool :=
  match a, b with
  | [], _ => true
  | _ :: _, [] => false
  | x :: a', y :: b' => if N.eqb x y then lex_leb a' b' else N.ltb x y
  end.
Fixpoint lex_insert (x : bytes) (l : list bytes) : list bytes :=
  match l with
  | [] => [x]
  | y :: l' => if lex_leb x y then x :: l else y :: lex_insert x l'
  end.
Fixpoint lex_sort (l : list bytes) : list bytes :=
  match l with [] => [] | x :: l' => lex_insert x (lex_sort l') end.
Definition read_dir (d : dir) : list bytes := lex_sort (mkeys d).

(** strings.HasPrefix *)
Fixpoint has_prefix (p s : bytes) : bool :=
  match p, s with
  | [], _ => true
  | x :: p', y :: s' => N.eqb x y && has_prefix p' s'
  | _ :: _, [] => false
  end.

Definition DOT : N := 46%N.

(** inidb.go:145-176 [prune]: the names to remove.  Errors of os.Remove are
    ignored by the code (line 172). *)
Definition prune_list (d : dir) (base : bytes) (depth : Z) : list bytes :=
  if (depth <? 0)%Z then []
  else
    let pl := filter (has_prefix (base ++ [DOT])) (read_dir d) in
    if (Z.of_nat (length pl) - depth <? 0)%Z then []
    else firstn (Z.to_nat (Z.of_nat (length pl) - depth)) pl.

(** inidb.go:96-143 [Save] for a dirty database.  [tmp] is the name chosen by
    ioutil.TempFile, [stamp] the formatted time.  The file is written by one
    call per line (Fprintf); [chunks] are those writes.  The returned flag is
    false when a rename failed and Save returned an error. *)
Definition save_effects (d : dir) (base tmp stamp : bytes) (created : bool)
  (chunks : list bytes) : list fs_eff * bool :=
  let pre := FCreate tmp :: map (FAppend tmp) chunks in
  if created then (pre ++ [FRename tmp base], true)
  else match mget d base with
       | Some _ => (pre ++ [FRename base (base ++ [DOT] ++ stamp); FRename tmp base], true)
       | None => (pre, false)     (* could not rename original file *)
       end.

Definition save_dir (d : dir) (base tmp stamp : bytes) (created : bool) (depth : Z)
  (chunks : list bytes) : list fs_eff * bool :=
  let (es, ok) := save_effects d base tmp stamp created chunks in
  if ok then (es ++ map FRemove (prune_list (fs_run d es) base depth), true)
  else (es, false).

(** inidb.go:68-85: opening.  [OpenCreated] is the ErrCreated outcome with a new
    empty database. *)
Inductive open_result := OpenOk (t : tables) | OpenCreated | OpenError.
Definition ini_open (d : dir) (base : bytes) (create : bool) : open_result :=
  match mget d base with
  | Some c => match parse c with Some t => OpenOk t | None => OpenError end
  | None => if create then OpenCreated else OpenError
  end.

(** inidb.go:126: time.Now().Format("20060102.150405.000000000"): zero padded
    year-month-day, hour-minute-second and nanosecond fields. *)
Fixpoint pad (w : nat) (n : N) : bytes :=
  match w with
  | O => []
  | S w' => pad w' (n / 10)%N ++ [(48 + n mod 10)%N]
  end.
Definition stamp_of (t : N * N * N) : bytes :=
  let '(ymd, hms, ns) := t in pad 8 ymd ++ [DOT] ++ pad 6 hms ++ [DOT] ++ pad 9 ns.
