(** Model of encoding/hex as used by zkc and of zkidentity.String2ID. *)
From Verif Require Import Base.

Definition hex_digit (n : N) : N := if (n <? 10)%N then (48 + n)%N else (87 + n)%N.

(** hex.EncodeToString (zkidentity.go:106-108 Fingerprint, 141-147 String). *)
Definition hex_encode (b : bytes) : bytes :=
  flat_map (fun x => [hex_digit (x / 16); hex_digit (x mod 16)])%N b.

Definition from_hex_char (c : N) : option N :=
  if ((48 <=? c) && (c <=? 57))%N then Some (c - 48)%N
  else if ((97 <=? c) && (c <=? 102))%N then Some (c - 87)%N
  else if ((65 <=? c) && (c <=? 70))%N then Some (c - 55)%N
  else None.

(** hex.DecodeString: pairs of digits of either case; an odd length or any other
    character is an error. *)
Fixpoint hex_decode (s : bytes) : option bytes :=
  match s with
  | [] => Some []
  | [_] => None
  | a :: b :: r =>
      match from_hex_char a, from_hex_char b, hex_decode r with
      | Some x, Some y, Some l => Some ((x * 16 + y)%N :: l)
      | _, _, _ => None
      end
  end.

(** zkidentity.go:196-209 String2ID. *)
Definition string2id (s : bytes) : res unit bytes :=
  match hex_decode s with
  | None => Err tt
  | Some id => if length id =? 32 then Ok id else Err tt
  end.
