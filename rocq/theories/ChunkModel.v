(** File transfer: /repo/zkclient/send.go and /repo/zkclient/chunk.go.

    Simplifications: paths are lists of components, innermost first, of a cleaned
    absolute path; there are no symbolic links, and os.Stat fails only for what is
    not there.  Nothing else changes the disk while a message is handled.
    SHA256 is a parameter.  Texts shown to the user are left out, except that a file
    is complete.  What a failed write leaves behind is a prefix. *)
From Verif Require Import Base XdrModel RpcModel UiModel HexModel.
Local Open Scope N_scope.

(** * Files *)

Notation path := (list bytes).
Inductive node := Dir | File (b : bytes).
Notation disk := (list (path * node)).

(** Of the root the parent is the root. *)
Definition is_dir (d : disk) (p : path) : bool :=
  match p with [] => true | _ => match mget d p with Some Dir => true | _ => false end end.
Definition there (d : disk) (p : path) : bool :=
  match p with [] => true | _ => match mget d p with Some _ => true | None => false end end.
Definition file_at (d : disk) (p : path) : option bytes :=
  match mget d p with Some (File b) => Some b | _ => None end.

(** os.MkdirAll, whose error chunk.go:40 drops. *)
Fixpoint mkdir_all (d : disk) (p : path) : disk :=
  match p with
  | [] => d
  | _ :: q => let d1 := mkdir_all d q in
              if negb (there d1 p) && is_dir d1 q then mset d1 p Dir else d1
  end.

(** os.Create and what is then written; None is an error. *)
Definition create (d : disk) (p : path) (b : bytes) : option disk :=
  if is_dir d (tl p) && negb (is_dir d p) then Some (mset d p (File b)) else None.

(** What may go wrong with the disk. *)
Inductive fault :=
| Works
| NoDesc                        (* os.Create or os.Open of the descriptor *)
| PartDesc (k : nat)            (* only so much of the descriptor is written *)
| NoSpool                       (* os.Create or os.OpenFile of the spool *)
| PartSpool (k : nat)           (* only so much of the chunk is written *)
| NoHash                        (* goutil.FileSHA256 *)
| NoRename
| NoRemove.

(** What the handler did: returned nil, returned an error, reported a file complete,
    or never returned. *)
Inductive tout := Quiet | Refused | Complete (p : path) | Hangs.

(** chunk.go:19 *)
Definition descriptor : bytes := bs "descriptor.xdr".

(** fi.Size(), an int64 that is not negative, against int64 of a uint64. *)
Definition to_int64 (x : N) : Z := if x <? 2 ^ 63 then Z.of_N x else (Z.of_N x - 2 ^ 64)%Z.
Definition same_size (n : nat) (x : N) : bool := (Z.of_nat n =? to_int64 x)%Z.

Section Chunks.
  Variable sha : bytes -> bytes.
  (** path.Join(z.settings.Root, spoolDir) *)
  Variable base : path.

  (** chunk.go:36-39, 89-92 *)
  Definition dir_of (from : bytes) : path := hex_encode from :: base.
  Definition spool_of (from digest : bytes) : path := hex_encode digest :: dir_of from.
  Definition desc_of (from : bytes) : path := descriptor :: dir_of from.

  (** chunk.go:21-73 [handleChunkNew], [doHandleChunkNew]; [known] is whether the
      sender is in the address book. *)
  Definition handle_new (d : disk) (from : bytes) (cn : ChunkNew) (f : fault) (known : bool) : tout * disk :=
    let d1 := mkdir_all d (dir_of from) in
    let b := enc ChunkNew_codec cn in
    match f with
    | NoDesc => (Refused, d1)
    | PartDesc k => match create d1 (desc_of from) (firstn k b) with Some d2 => (Refused, d2) | None => (Refused, d1) end
    | _ =>
        match create d1 (desc_of from) b with
        | None => (Refused, d1)
        | Some d2 =>
            match f with
            | NoSpool => (Refused, d2)
            | _ => match create d2 (spool_of from (ChunkNew_Digest cn)) [] with
                   | None => (Refused, d2)
                   | Some d3 => (if known then Quiet else Refused, d3)
                   end
            end
        end
    end.

  (** chunk.go:159-169: the [k]-th candidate. *)
  Definition candidate (name : bytes) (k : nat) : path := join base (repeat 49 k ++ name).

  (** chunk.go:171-188, once the place has been chosen. *)
  Definition move (d : disk) (from digest : bytes) (content : bytes) (full : path) (f : fault) : tout * disk :=
    match f with
    | NoRename => (Refused, d)
    | _ => if is_dir d (tl full)
           then let d1 := mset (mdel d (spool_of from digest)) full (File content) in
                (Complete full, match f with NoRemove => d1 | _ => mdel d1 (desc_of from) end)
           else (Refused, d)
    end.

  (** chunk.go:140-189: the descriptor says [cn], the spool is [content]. *)
  Definition finish (d : disk) (from digest : bytes) (content : bytes) (cn : ChunkNew) (f : fault) (known : bool)
      (o : tout) (d' : disk) : Prop :=
    if negb (same_size (length content) (ChunkNew_Size cn)) then o = Quiet /\ d' = d
    else if negb known then o = Refused /\ d' = d
    else match f with
         | NoHash => o = Refused /\ d' = d
         | _ =>
             if negb (eqb (sha content) (ChunkNew_Digest cn)) then o = Refused /\ d' = d
             else (exists k, there d (candidate (ChunkNew_Filename cn) k) = false /\
                      (forall j, (j < k)%nat -> there d (candidate (ChunkNew_Filename cn) j) = true) /\
                      (o, d') = move d from digest content (candidate (ChunkNew_Filename cn) k) f)
                  \/ ((forall k, there d (candidate (ChunkNew_Filename cn) k) = true) /\ o = Hangs /\ d' = d)
         end.

  (** chunk.go:75-192 [handleChunk], [doHandleChunk] *)
  Definition handle_chunk (d : disk) (from : bytes) (c : Chunk) (f : fault) (known : bool) (o : tout) (d' : disk) : Prop :=
    match f, file_at d (spool_of from (Chunk_Digest c)) with
    | NoSpool, _ | _, None => o = Refused /\ d' = d
    | _, Some old =>
        if negb (same_size (length old) (Chunk_Offset c)) then o = Refused /\ d' = d
        else match f with
             | PartSpool k => o = Refused /\ d' = mset d (spool_of from (Chunk_Digest c)) (File (old ++ firstn k (Chunk_Payload c)))
             | _ =>
                 let content := old ++ Chunk_Payload c in
                 let d1 := mset d (spool_of from (Chunk_Digest c)) (File content) in
                 match f, file_at d1 (desc_of from) with
                 | NoDesc, _ | _, None => o = Refused /\ d' = d1
                 | _, Some b =>
                     match dec ChunkNew_codec 0 b with
                     | None => o = Refused /\ d' = d1
                     | Some (cn, _) => finish d1 from (Chunk_Digest c) content cn f known o d'
                     end
                 end
             end
    end.

  Inductive tevent :=
  | TNew (from : bytes) (cn : ChunkNew) (f : fault) (known : bool)
  | TChunk (from : bytes) (c : Chunk) (f : fault) (known : bool).

  Definition sender (e : tevent) : bytes := match e with TNew x _ _ _ => x | TChunk x _ _ _ => x end.

  Definition tstep (d : disk) (e : tevent) (o : tout) (d' : disk) : Prop :=
    match e with
    | TNew from cn f known => (o, d') = handle_new d from cn f known
    | TChunk from c f known => handle_chunk d from c f known o d'
    end.

  (** What happened, oldest first. *)
  Inductive truns : disk -> list (tevent * tout) -> disk -> Prop :=
  | TR_nil d : truns d [] d
  | TR_cons d e o d1 t d' : tstep d e o d1 -> truns d1 t d' -> truns d ((e, o) :: t) d'.

  (** * The sender *)

  (** send.go:129-142: what f.Read gives, one after the other, until the end of a
      file that does not change; a Read gives at least one byte and at most the size
      of the buffer. *)
  Inductive reads (size : N) : bytes -> list bytes -> Prop :=
  | Reads_end : reads size [] []
  | Reads_more b rest l : b <> [] -> N.of_nat (length b) <= size -> reads size rest l -> reads size (b ++ rest) (b :: l).

  (** send.go:144-154, int arithmetic. *)
  Fixpoint chunks (digest : bytes) (offset : N) (l : list bytes) : list Chunk :=
    match l with
    | [] => []
    | b :: r => mkChunk offset digest b :: chunks digest (offset + N.of_nat (length b)) r
    end.

  (** send.go:45-95 [send] and 98-158 [completeSend] of a regular file that does not
      change; None is an error.  [name] is path.Base of the file name. *)
  Definition send (size limit : N) (name descr mime file : bytes) (l : list bytes) : option (ChunkNew * list Chunk) :=
    if limit <? N.of_nat (length file) then None
    else match file with
         | [] => None                             (* send.go:31-34: io.EOF *)
         | _ => Some (mkChunkNew (N.of_nat (length file)) size name descr mime (sha file), chunks (sha file) 0 l)
         end.
End Chunks.
