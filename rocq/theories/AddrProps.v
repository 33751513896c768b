(** C31 and C52: the address book. *)
From Verif Require Import Base XdrModel RpcModel AddrModel.
Local Open Scope N_scope.

Definition us (k : nat) : bytes := repeat 95 k.
Definition taken (b : book) (p : PublicIdentity) (n : bytes) : Prop :=
  exists q, find_nick b n = Some q /\ ident q <> ident p.

Lemma with_nick_id p : with_nick p (nick p) = p. Proof. now destruct p. Qed.
Lemma us_S n k : n ++ us (S k) = (n ++ [95]) ++ us k.
Proof. now rewrite <- app_assoc. Qed.

Lemma pick_spec fuel : forall b p dup,
  (exists k, (k < fuel)%nat /\ pick_nick fuel b p dup = Some (with_nick p (nick p ++ us k), dup || (0 <? k)%nat) /\
     (forall j, (j < k)%nat -> taken b p (nick p ++ us j)) /\ ~ taken b p (nick p ++ us k)) \/
  (pick_nick fuel b p dup = None /\ forall j, (j < fuel)%nat -> taken b p (nick p ++ us j)).
Proof.
  induction fuel as [|fuel IH]; intros b p dup; cbn [pick_nick].
  - right. split; auto. lia.
  - assert (Z : nick p ++ us 0 = nick p) by apply app_nil_r.
    destruct (mget b (nick p)) as [q|] eqn:G.
    + destruct (eqb_spec (ident p) (ident q)) as [E|E].
      * left. exists 0%nat. rewrite Z, with_nick_id, orb_false_r. split; [lia|]. split; auto. split; [lia|].
        intros (q' & G' & N). unfold find_nick in G'. congruence.
      * set (p' := with_nick p (nick p ++ bs "_")).
        assert (T0 : taken b p (nick p ++ us 0)) by (rewrite Z; exists q; split; auto).
        destruct (IH b p' true) as [(k & K1 & K2 & K3 & K4)|(K2 & K3)].
        -- left. exists (S k). split; [lia|]. rewrite K2. rewrite us_S. split.
           { rewrite orb_true_r. reflexivity. }
           split; [|exact K4]. intros [|j] Hj; auto. rewrite us_S. apply K3. lia.
        -- right. split; auto. intros [|j] Hj; auto. rewrite us_S. apply K3. lia.
    + left. exists 0%nat. rewrite Z, with_nick_id, orb_false_r. split; [lia|]. split; auto. split; [lia|].
      intros (q' & G' & N). unfold find_nick in G'. congruence.
Qed.

Lemma us_inj n j k : n ++ us j = n ++ us k -> j = k.
Proof. intros H. apply app_inv_head in H. apply (f_equal (@length _)) in H. unfold us in H; now rewrite !repeat_length in H. Qed.

(** Add always ends. *)
Lemma add_spec b p : exists k,
  add b p = Some (mset b (nick p ++ us k) (with_nick p (nick p ++ us k)), nick p ++ us k, (0 <? k)%nat) /\
  (forall j, (j < k)%nat -> taken b p (nick p ++ us j)) /\ ~ taken b p (nick p ++ us k).
Proof.
  unfold add. destruct (pick_spec (S (length b)) b p false) as [(k & K1 & K2 & K3 & K4)|(_ & K)].
  - exists k. rewrite K2. split; auto.
  - exfalso. assert (ND : NoDup (map (fun j => nick p ++ us j) (seq 0 (S (length b))))).
    { apply FinFun.Injective_map_NoDup; [intros i j; apply us_inj|apply seq_NoDup]. }
    assert (I : incl (map (fun j => nick p ++ us j) (seq 0 (S (length b)))) (mkeys b)).
    { intros n H. apply in_map_iff in H as (j & <- & H). apply in_seq in H.
      destruct (K j) as (q & Q & _); [lia|]. now apply mget_Some_keys in Q. }
    pose proof (NoDup_incl_length ND I) as L. rewrite map_length, seq_length in L. unfold mkeys in L. rewrite map_length in L. lia.
Qed.

(** ** Histories *)

(** The books reachable from the empty one; the iteration order of the map is
    arbitrary. *)
Inductive reach : book -> Prop :=
| R_new : reach []
| R_add b p b' n dup : reach b -> add b p = Some (b', n, dup) -> reach b'
| R_del b id order b' : reach b -> Permutation order (mkeys b) -> del order b id = Some b' -> reach b'.

Definition filed (b : book) : Prop := NoDup (mkeys b) /\ forall n p, In (n, p) b -> nick p = n.

Lemma In_mset b (n : bytes) (p : PublicIdentity) x : In x (mset b n p) -> x = (n, p) \/ In x b.
Proof.
  induction b as [|[k v] b IH]; cbn; [intuition|]. destruct (eqb n k); cbn; intuition.
Qed.

Lemma del_spec order b id b' : del order b id = Some b' ->
  exists n p, mget b n = Some p /\ ident p = id /\ b' = mdel b n.
Proof.
  induction order as [|n r IH]; cbn; [discriminate|]. destruct (mget b n) as [p|] eqn:G; auto.
  destruct (eqb_spec (ident p) id); auto. intros [= <-]. eauto.
Qed.

Lemma reach_filed b : reach b -> filed b.
Proof.
  induction 1 as [|b p b' n dup _ [IH1 IH2] A|b id order b' _ [IH1 IH2] _ D].
  - split; [constructor|]. intros n p [].
  - destruct (add_spec b p) as (k & A' & _). rewrite A' in A. injection A as <- <- <-. split; [now apply NoDup_mset|].
    intros n q H. apply In_mset in H as [[= -> ->]|H]; auto.
  - apply del_spec in D as (n & p & _ & _ & ->). split; [now apply NoDup_mdel|].
    intros n' q H. apply IH2. unfold mdel in H. apply filter_In in H. tauto.
Qed.

(** Add files the identity under its nick followed by the fewest underscores that
    make the nick free or already its own, and changes no other entry. *)
Theorem C31_add : forall b p, exists k b',
  let n := nick p ++ repeat 95 k in
  add b p = Some (b', n, (0 <? k)%nat) /\
  (forall j, (j < k)%nat -> exists q, find_nick b (nick p ++ repeat 95 j) = Some q /\ ident q <> ident p) /\
  (find_nick b n = None \/ exists q, find_nick b n = Some q /\ ident q = ident p) /\
  find_nick b' n = Some (mkPublicIdentity (PublicIdentity_Name p) n (PublicIdentity_SigKey p) (PublicIdentity_Key p)
    (PublicIdentity_Identity p) (PublicIdentity_Digest p) (PublicIdentity_Signature p)) /\
  forall m, m <> n -> find_nick b' m = find_nick b m.
Proof.
  intros b p. destruct (add_spec b p) as (k & A & T & F). exists k. eexists. split; [exact A|]. split; [exact T|]. split.
  - destruct (find_nick b (nick p ++ us k)) as [q|] eqn:G; auto. right. exists q. split; auto.
    destruct (EqB_dec (ident q) (ident p)) as [E|E]; auto. exfalso. apply F. exists q. auto.
  - unfold find_nick. split; [apply mget_mset_eq|]. intros m H. now apply mget_mset_ne.
Qed.
Print Assumptions C31_add.

(** In every history: an entry is found under its own nick and only there, an
    identity is found exactly when some entry has it, and what is found by identity
    is also what its nick finds. *)
Theorem C31_lookup : forall b, reach b ->
  (forall n p, find_nick b n = Some p -> nick p = n) /\
  (forall order id, Permutation order (mkeys b) ->
     match find_identity order b id with
     | Some p => ident p = id /\ find_nick b (nick p) = Some p
     | None => forall n p, find_nick b n = Some p -> ident p <> id
     end).
Proof.
  intros b R. apply reach_filed in R as [ND F]. assert (F' : forall n p, mget b n = Some p -> nick p = n).
  { intros n p H. apply F. now apply mget_In. }
  split; [exact F'|]. intros order id P.
  assert (X : match find_identity order b id with
     | Some p => ident p = id /\ find_nick b (nick p) = Some p
     | None => forall n p, In n order -> find_nick b n = Some p -> ident p <> id
     end).
  { clear P. induction order as [|n r IH]; cbn; [intros n p []|].
    destruct (mget b n) as [p|] eqn:G.
    - destruct (eqb_spec (ident p) id) as [E|E].
      + split; auto. unfold find_nick. now rewrite (F' n p G).
      + destruct (find_identity r b id); auto. intros m q [<-|I]; [|now apply IH].
        unfold find_nick. intros H. congruence.
    - destruct (find_identity r b id); auto. intros m q [<-|I]; [|now apply IH].
      unfold find_nick. intros H. congruence. }
  destruct (find_identity order b id); auto. intros n p H. apply (X n p); auto.
  eapply Permutation_in; [symmetry; exact P|]. now apply mget_Some_keys in H.
Qed.
Print Assumptions C31_lookup.

(** Del removes one entry of the identity and fails exactly when there is none. *)
Theorem C31_del : forall b order id, reach b -> Permutation order (mkeys b) ->
  match del order b id with
  | Some b' => exists n p, find_nick b n = Some p /\ ident p = id /\ find_nick b' n = None /\
                 forall m, m <> n -> find_nick b' m = find_nick b m
  | None => forall n p, find_nick b n = Some p -> ident p <> id
  end.
Proof.
  intros b order id R P. destruct (del order b id) as [b'|] eqn:D.
  - apply del_spec in D as (n & p & G & E & ->). exists n, p. split; auto. split; auto. unfold find_nick. split.
    + rewrite mget_mdel, eqb_refl. auto.
    + intros m H. rewrite mget_mdel. now apply eqb_neq in H as ->.
  - destruct (C31_lookup b R) as [_ L]. specialize (L order id P).
    assert (X : find_identity order b id = None).
    { clear L P. induction order as [|n r IH]; cbn in *; auto. destruct (mget b n); auto. destruct (eqb _ _); [discriminate|auto]. }
    now rewrite X in L.
Qed.
Print Assumptions C31_del.

(** But one identity can be filed twice, after which deleting it does not remove it. *)
Definition person (i : N) (n : bytes) : PublicIdentity := mkPublicIdentity [] n [] [] [i] [] [].
Theorem C31_twice_refuted : exists b p q,
  reach b /\ nick p <> nick q /\ ident p = ident q /\
  find_nick b (nick p) = Some p /\ find_nick b (nick q) = Some q /\
  forall order b', Permutation order (mkeys b) -> del order b (ident p) = Some b' ->
    exists n r, find_nick b' n = Some r /\ ident r = ident p.
Proof.
  exists [(bs "al_", person 2 (bs "al_")); (bs "al", person 2 (bs "al"))], (person 2 (bs "al_")), (person 2 (bs "al")).
  split; [|split; [discriminate|split; [reflexivity|split; [reflexivity|split; [reflexivity|]]]]].
  - pose proof (R_add [] (person 1 (bs "al")) _ _ _ R_new eq_refl) as R1.
    pose proof (R_add _ (person 2 (bs "al")) _ _ _ R1 eq_refl) as R2.
    pose proof (R_del _ [1] [bs "al"; bs "al_"] _ R2 (Permutation_refl _) eq_refl) as R3.
    exact (R_add _ (person 2 (bs "al")) _ _ _ R3 eq_refl).
  - intros order b' _ D. apply del_spec in D as (n & p & G & E & ->). cbn [mget] in G.
    destruct (eqb_spec n (bs "al_")) as [->|N1].
    + exists (bs "al"). eexists. split; reflexivity.
    + destruct (eqb_spec n (bs "al")) as [->|N2]; [|discriminate]. exists (bs "al_"). eexists. split; reflexivity.
Qed.
Print Assumptions C31_twice_refuted.

Example C31_case :
  let a := person 1 (bs "al") in let b := person 2 (bs "al") in let c := person 3 (bs "al") in
  match add [] a with
  | Some (b1, n1, d1) =>
    match add b1 b with
    | Some (b2, n2, d2) =>
      match add b2 c with
      | Some (b3, n3, d3) => (n1, n2, n3, d1, d2, d3) = (bs "al", bs "al_", bs "al__", false, true, true) /\
                             option_map ident (find_nick b3 (bs "al_")) = Some [2]
      | None => False end
    | None => False end
  | None => False end.
Proof. vm_compute. auto. Qed.

(** * C52: restart *)

(** If all contacts have different nicks, restarting files every one under its own
    nick, whatever the order. *)
Theorem C52_restart : forall self files,
  NoDup (map nick files) -> Forall (fun p => ident p <> self) files ->
  (forall p, In p files -> find_nick (load self files []) (nick p) = Some p) /\
  (forall n p, find_nick (load self files []) n = Some p -> In p files /\ nick p = n).
Proof.
  intros self files ND S.
  assert (G : forall b, filed b -> (forall p, In p files -> mget b (nick p) = None) ->
    (forall p, In p files -> mget (load self files b) (nick p) = Some p) /\
    (forall n, ~ In n (map nick files) -> mget (load self files b) n = mget b n)).
  { clear - ND S. induction files as [|p r IH]; intros b F H; [split; [intros p []|auto]|].
    inversion ND; inversion S; subst. cbn [load]. unfold book_add. destruct (eqb_spec self (ident p)) as [E|_]; [congruence|].
    destruct (add_spec b p) as (k & A & T & Q). assert (K : k = 0%nat).
    { destruct k; auto. destruct (T 0%nat) as (q & G & _); [lia|]. unfold us in G. cbn [repeat] in G. rewrite app_nil_r in G.
      unfold find_nick in G. rewrite H in G; [discriminate|now left]. }
    subst k. rewrite A. unfold us. cbn [repeat]. rewrite app_nil_r, with_nick_id.
    destruct (IH H3 H7 (mset b (nick p) p)) as [L1 L2].
    - destruct F as [F1 F2]. split; [now apply NoDup_mset|]. intros n q X. apply In_mset in X as [[= -> ->]|X]; auto.
    - intros q Hq. rewrite mget_mset_ne; [apply H; now right|]. intros X. apply H2. rewrite <- X. now apply in_map.
    - split.
      + intros q [<-|Hq]; auto. rewrite L2 by auto. apply mget_mset_eq.
      + intros n Hn. cbn in Hn. rewrite L2 by tauto. apply mget_mset_ne. intros ->. tauto. }
  destruct (G []) as [G1 G2]; [split; [constructor|intros ? ? []]|auto|]. split; auto.
  intros n p H. destruct (in_dec EqB_dec n (map nick files)) as [I|I].
  - apply in_map_iff in I as (q & <- & I). unfold find_nick in H. rewrite (G1 q I) in H. injection H as <-. auto.
  - unfold find_nick in H. rewrite G2 in H by auto. discriminate.
Qed.
Print Assumptions C52_restart.

(** With equal nicks the names can be swapped: a contact added first keeps the plain
    nick until the restart, then it belongs to another one.  Directories are read in
    the order of the (hexadecimal) identities. *)
Theorem C52_swap_refuted : exists self b1 b2 x y,
  reach b2 /\
  book_add self [] x = Some (b1, false) /\ book_add self b1 y = Some (b2, true) /\ ident x <> ident y /\
  option_map ident (find_nick b2 (nick x)) = Some (ident x) /\
  option_map ident (find_nick (load self [y; x] []) (nick x)) = Some (ident y) /\
  option_map ident (find_nick (load self [y; x] []) (nick x ++ bs "_")) = Some (ident x) /\
  (exists i j, ident x = [i] /\ ident y = [j] /\ j < i).
Proof.
  do 2 eexists. exists [(bs "al", person 9 (bs "al")); (bs "al_", person 4 (bs "al_"))].
  exists (person 9 (bs "al")), (person 4 (bs "al")). split.
  - pose proof (R_add [] (person 9 (bs "al")) _ _ _ R_new eq_refl) as R1.
    exact (R_add _ (person 4 (bs "al")) _ _ _ R1 eq_refl).
  - instantiate (1 := [0]). split; [reflexivity|]. split; [reflexivity|]. split; [discriminate|].
    split; [reflexivity|]. split; [reflexivity|]. split; [reflexivity|]. exists 9, 4. repeat split.
Qed.
Print Assumptions C52_swap_refuted.

Example C52_case : let files := [person 1 (bs "al"); person 2 (bs "bo"); person 3 (bs "cy")] in
  NoDup (map nick files) /\ map (fun n => option_map ident (find_nick (load [7] files []) n)) [bs "al"; bs "bo"; bs "cy"; bs "al_"]
    = [Some [1]; Some [2]; Some [3]; None].
Proof. split; [|reflexivity]. cbn. repeat constructor; cbn; intuition discriminate. Qed.
