(** Model of the address book, /repo/zkclient/addressbook/addressbook.go and
    /repo/zkclient/addressbook.go.

    The Go map from nicks to identities is an association list whose order is the
    iteration order of the map where that matters ([order] below).  The mutex makes
    every operation atomic. *)
From Verif Require Import Base XdrModel RpcModel.
Local Open Scope N_scope.

Notation book := (list (bytes * PublicIdentity)).

Definition nick (p : PublicIdentity) : bytes := PublicIdentity_Nick p.
Definition ident (p : PublicIdentity) : bytes := PublicIdentity_Identity p.
Definition with_nick (p : PublicIdentity) (n : bytes) : PublicIdentity :=
  mkPublicIdentity (PublicIdentity_Name p) n (PublicIdentity_SigKey p) (PublicIdentity_Key p)
    (PublicIdentity_Identity p) (PublicIdentity_Digest p) (PublicIdentity_Signature p).

(** addressbook.go:54-66, the loop of Add: appends "_" while the nick is taken by
    another identity.  None when [fuel] rounds do not suffice. *)
Fixpoint pick_nick (fuel : nat) (b : book) (p : PublicIdentity) (dup : bool) : option (PublicIdentity * bool) :=
  match fuel with
  | O => None
  | S fuel' =>
      match mget b (nick p) with
      | Some q => if eqb (ident p) (ident q) then Some (p, dup)
                  else pick_nick fuel' b (with_nick p (nick p ++ bs "_")) true
      | None => Some (p, dup)
      end
  end.

(** addressbook.go:44-69 Add: the new book, the nick used and whether it was
    changed (ErrDuplicateNick).  One round more than there are entries suffices
    (proved in AddrProps.v). *)
Definition add (b : book) (p : PublicIdentity) : option (book * bytes * bool) :=
  match pick_nick (S (length b)) b p false with
  | Some (p', dup) => Some (mset b (nick p') p', nick p', dup)
  | None => None
  end.

(** addressbook.go:102-113 FindIdentity, the loop over the map in the order [order]
    of its keys. *)
Fixpoint find_identity (order : list bytes) (b : book) (id : bytes) : option PublicIdentity :=
  match order with
  | [] => None
  | n :: r => match mget b n with
              | Some p => if eqb (ident p) id then Some p else find_identity r b id
              | None => find_identity r b id
              end
  end.

(** addressbook.go:88-99 FindNick. *)
Definition find_nick (b : book) (n : bytes) : option PublicIdentity := mget b n.

(** addressbook.go:71-86 Del; None is ErrNotFound. *)
Fixpoint del (order : list bytes) (b : book) (id : bytes) : option book :=
  match order with
  | [] => None
  | n :: r => match mget b n with
              | Some p => if eqb (ident p) id then Some (mdel b n) else del r b id
              | None => del r b id
              end
  end.

(** zkclient/addressbook.go:60-72 addressBookAdd; None for oneself (and never
    otherwise); the boolean is the warning about a duplicate nick. *)
Definition book_add (self : bytes) (b : book) (p : PublicIdentity) : option (book * bool) :=
  if eqb self (ident p) then None
  else match add b p with Some (b', _, dup) => Some (b', dup) | None => None end.

(** zkclient/addressbook.go:108-140 loadIdentities, where [files] are the identities
    read from the directories in the order of their names (unreadable ones are
    skipped by the code and left out here). *)
Fixpoint load (self : bytes) (files : list PublicIdentity) (b : book) : book :=
  match files with
  | [] => b
  | p :: r => load self r (match book_add self b p with Some (b', _) => b' | None => b end)
  end.
