(** Model of the XDR encoding (library github.com/davecgh/go-xdr/xdr2, recalled
    from its documentation; its source is not in /repo).  Used by every message,
    identity and state file of zkc.

    A codec is a pair of an encoder and a decoder.  The decoder takes the limit
    of UnmarshalLimited (0 for plain Unmarshal) and returns the value and the
    unread input; [None] is any error. *)
From Verif Require Import Base.

Record codec (A : Type) := Codec {
  enc : A -> bytes;
  dec : N -> bytes -> option (A * bytes)
}.
Arguments Codec {A} enc dec.
Arguments enc {A} c a.
Arguments dec {A} c lim b.

(** Big endian integers of [k] bytes. *)
Fixpoint be (k : nat) (n : N) : bytes :=
  match k with
  | O => []
  | S k' => (n / 2 ^ (8 * N.of_nat k') mod 256)%N :: be k' n
  end.
Definition of_be (b : bytes) : N := fold_left (fun a x => a * 256 + x)%N b 0%N.

(** io.ReadFull of [n] bytes. *)
Definition take (n : N) (b : bytes) : option (bytes * bytes) :=
  if (N.of_nat (length b) <? n)%N then None
  else Some (firstn (N.to_nat n) b, skipn (N.to_nat n) b).

(** DecodeUint, EncodeUint: 4 bytes. *)
Definition xuint32 : codec N :=
  Codec (be 4) (fun _ b => match take 4 b with Some (x, r) => Some (of_be x, r) | None => None end).

(** DecodeUhyper, EncodeUhyper: 8 bytes. *)
Definition xuint64 : codec N :=
  Codec (be 8) (fun _ b => match take 8 b with Some (x, r) => Some (of_be x, r) | None => None end).

(** Two's complement. *)
Definition to_twos (bits : Z) (z : Z) : N := Z.to_N (z mod 2 ^ bits).
Definition of_twos (bits : Z) (n : N) : Z :=
  if (Z.of_N n <? 2 ^ (bits - 1))%Z then Z.of_N n else (Z.of_N n - 2 ^ bits)%Z.

(** A Go int is sent as a 32 bit integer; the encoder refuses larger values,
    which here is part of the domain of the codec. *)
Definition xint : codec Z :=
  Codec (fun z => be 4 (to_twos 32 z))
        (fun _ b => match take 4 b with Some (x, r) => Some (of_twos 32 (of_be x), r) | None => None end).

Definition xint64 : codec Z :=
  Codec (fun z => be 8 (to_twos 64 z))
        (fun _ b => match take 8 b with Some (x, r) => Some (of_twos 64 (of_be x), r) | None => None end).

(** Booleans are the integers 0 and 1; anything else is an error. *)
Definition xbool : codec bool :=
  Codec (fun v : bool => be 4 (if v then 1 else 0)%N)
        (fun _ b => match take 4 b with
                    | Some (x, r) => if N.eqb (of_be x) 0 then Some (false, r)
                                     else if N.eqb (of_be x) 1 then Some (true, r) else None
                    | None => None
                    end).

(** Zero padding to a multiple of four. *)
Definition pad_len (n : N) : N := ((4 - n mod 4) mod 4)%N.
Definition max_int32 : N := (2 ^ 31 - 1)%N.

(** EncodeFixedOpaque / DecodeFixedOpaque of [n] bytes.  The decoder does not
    look at the padding bytes. *)
Definition enc_fixed (s : bytes) : bytes :=
  s ++ repeat 0%N (N.to_nat (pad_len (N.of_nat (length s)))).
Definition dec_fixed (n : N) (b : bytes) : option (bytes * bytes) :=
  if (max_int32 <? n + pad_len n)%N then None
  else match take (n + pad_len n) b with
       | Some (x, r) => Some (firstn (N.to_nat n) x, r)
       | None => None
       end.
Definition xfixed (n : N) : codec bytes := Codec enc_fixed (fun _ => dec_fixed n).

(** Strings and byte slices: length and padded contents. *)
Definition xopaque : codec bytes :=
  Codec (fun s => be 4 (N.of_nat (length s)) ++ enc_fixed s)
        (fun lim b =>
           match take 4 b with
           | None => None
           | Some (x, r) =>
               let n := of_be x in
               if (max_int32 <? n)%N || (negb (N.eqb lim 0) && (lim <? n)%N) then None
               else dec_fixed n r
           end).

(** Structures are the concatenation of their fields. *)
Definition xpair {A B} (a : codec A) (b : codec B) : codec (A * B) :=
  Codec (fun p => enc a (fst p) ++ enc b (snd p))
        (fun lim s => match dec a lim s with
                      | None => None
                      | Some (x, r) => match dec b lim r with
                                       | None => None
                                       | Some (y, r') => Some ((x, y), r')
                                       end
                      end).

Definition xiso {A B} (f : A -> B) (g : B -> A) (c : codec A) : codec B :=
  Codec (fun b => enc c (g b))
        (fun lim s => match dec c lim s with Some (x, r) => Some (f x, r) | None => None end).

(** The empty structure. *)
Definition xunit : codec unit := Codec (fun _ => []) (fun _ b => Some (tt, b)).

(** Slices: length and elements.  [size] is the size in memory of one element,
    which the decoder multiplies with the length to check the limit. *)
Fixpoint dec_many {A} (c : codec A) (lim : N) (k : nat) (b : bytes) : option (list A * bytes) :=
  match k with
  | O => Some ([], b)
  | S k' => match dec c lim b with
            | None => None
            | Some (x, r) => match dec_many c lim k' r with
                             | None => None
                             | Some (l, r') => Some (x :: l, r')
                             end
            end
  end.
Definition xlist {A} (size : N) (c : codec A) : codec (list A) :=
  Codec (fun l => be 4 (N.of_nat (length l)) ++ concat (map (enc c) l))
        (fun lim b =>
           match take 4 b with
           | None => None
           | Some (x, r) =>
               let n := of_be x in
               if (max_int32 <? n)%N || (negb (N.eqb lim 0) && (lim <? n * size)%N) then None
               else dec_many c lim (N.to_nat n) r
           end).
